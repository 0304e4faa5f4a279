(** Every node of the tree has the location of its text. *)
From Verif Require Import Base Syntax Parser ParserSpec ParserTotal ParserRound ParserRound2 CostProofs Printer Lsp LspSpec LspProofs SpanParser LspVisit TokenSpec NameSpec SpanProofs SpanTypes SpanDefs SpanSchema SpanLsp.
Require Coq.Strings.String.
Import Coq.Strings.String.StringSyntax.
Local Open Scope N_scope.

Section Src.
Variable src : str.
Notation total := (bytes_len src).
(** What is known of the results of a parser that is run somewhere in the text. *)
Definition gives {A} (Q : A -> Prop) (p : parser A) : Prop :=
  forall i a r, sfx src i -> text i -> p i = POk a r -> sfx i r /\ Q a.
Lemma gives_weak {A} (P Q : A -> Prop) p : (forall a, P a -> Q a) -> gives P p -> gives Q p.
Proof. intros H K i a r Hi Ht E. destruct (K i a r Hi Ht E). auto. Qed.
Lemma gives_bind {A B} (P : A -> Prop) (Q : B -> Prop) p f : gives P p -> (forall a, P a -> gives Q (f a)) -> gives Q (pbind p f).
Proof.
  intros H K i b r Hi Ht E. unfold pbind in E. destruct (p i) as [a j| | | |] eqn:Ep; try discriminate. destruct (H i a j Hi Ht Ep) as [Sj Pa].
  destruct (K a Pa j b r (sfx_trans _ _ _ Hi Sj) (sfx_text _ _ Sj Ht) E) as [Sr Qb]. split; [exact (sfx_trans _ _ _ Sj Sr)|exact Qb].
Qed.
Lemma gives_ret {A} (Q : A -> Prop) a : Q a -> gives Q (pret a).
Proof. intros H i b r Hi Ht E. injection E as <- <-. split; [apply sfx_refl|exact H]. Qed.
Lemma gives_fail {A} (Q : A -> Prop) : gives Q pfail.
Proof. intros i a r _ _ E. discriminate. Qed.
Lemma gives_map {A B} (Q : B -> Prop) (f : A -> B) p : gives (fun a => Q (f a)) p -> gives Q (pmap f p).
Proof. intros H. unfold pmap. eapply gives_bind; [exact H|]. intros a Ha. apply gives_ret. exact Ha. Qed.
Lemma gives_cut {A} (Q : A -> Prop) p : gives Q p -> gives Q (cut_err p).
Proof. intros H i a r Hi Ht E. unfold cut_err in E. destruct (p i) eqn:Ep; try discriminate. apply (H i a r Hi Ht). congruence. Qed.
Lemma gives_alt {A} (Q : A -> Prop) p q : gives Q p -> gives Q q -> gives Q (alt p q).
Proof. intros H K i a r Hi Ht E. unfold alt in E. destruct (p i) eqn:Ep; try discriminate; [apply (H i a r Hi Ht); congruence|exact (K i a r Hi Ht E)]. Qed.
Lemma gives_opt {A} (Q : A -> Prop) p : gives Q p -> gives (fun o => match o with Some a => Q a | None => True end) (opt p).
Proof.
  intros H i a r Hi Ht E. unfold opt in E. destruct (p i) as [b j| | | |] eqn:Ep; try discriminate; injection E as <- <-; [exact (H i b j Hi Ht Ep)|split; [apply sfx_refl|exact I]].
Qed.
Lemma gives_spec {A} (p : parser A) k P : (forall n, spec k n P p) -> gives P p.
Proof.
  intros H i a r Hi Ht E. specialize (H (length i) i Ht (le_n _)). rewrite E in H. destruct H as ((g & Eg & _) & Ha). split; [exists g; exact Eg|exact Ha].
Qed.
Lemma gives_any {A} (p : parser A) k P : (forall n, spec k n P p) -> gives (fun _ => True) p.
Proof. intros H. eapply gives_weak; [|exact (gives_spec p k P H)]. auto. Qed.
(** From the agreement with the parser that forgets locations. *)
Lemma gives_both {A B} (R : str -> str -> A -> B -> Prop) p (q : parser B) :
  (forall i, text i -> both (R i) (p i) (q i)) -> (forall i r a b, R i r a b -> sfx i r) -> gives (fun _ => True) p.
Proof.
  intros H K i a r Hi Ht E. specialize (H i Ht). rewrite E in H. destruct (q i) as [b r'| | | |]; cbn in H; try contradiction. destruct H as [_ H].
  split; [exact (K _ _ _ _ H)|exact I].
Qed.
Lemma gives_ws {A} (Q : A -> Prop) p : gives Q p -> gives Q (ws p).
Proof. intros H. unfold ws. eapply gives_bind; [apply (gives_any multispace0 0 (fun _ => True)); intros n; apply spec_multispace0|]. intros _ _. exact H. Qed.
Lemma gives_then0 {A} (Q : A -> Prop) p : gives Q p -> gives Q (space0 ;; p).
Proof. intros H. eapply gives_bind; [apply (gives_any space0 0 (fun _ => True)); intros n; apply spec_space0|]. intros _ _. exact H. Qed.
Lemma gives_then1 {A} (Q : A -> Prop) p : gives Q p -> gives Q (space1 ;; p).
Proof. intros H. eapply gives_bind; [apply (gives_any space1 1 (fun _ => True)); intros n; apply spec_space1|]. intros _ _. exact H. Qed.
Lemma gives_char c : gives (fun _ => True) (span_of total (char c)).
Proof. apply (gives_both (fun i r l (_ : unit) => at1 total i r [c] l) _ (char c)); [intros i _; apply both_char|intros i r l u; apply at1_sfx]. Qed.
Lemma gives_tag t : gives (fun _ => True) (span_of total (tag t)).
Proof. apply (gives_both (fun i r l (_ : unit) => at1 total i r t l) _ (tag t)); [intros i _; apply both_tag|intros i r l u; apply at1_sfx]. Qed.
Lemma at1_loc i r t l : sfx src i -> at1 total i r t l -> at_loc src l t.
Proof.
  intros [g Hg] [-> ->]. exists g, r. split; [exact Hg|]. rewrite (offs_suffix src g) by exact Hg. f_equal. apply offs_suffix. rewrite Hg, <- app_assoc. reflexivity.
Qed.
Lemma gives_name f g : f nl = false -> g nl = false -> gives (fun n => at_loc src (ln_loc n) (ln_text n)) (lnamed total (ident f g)).
Proof.
  intros Hf Hg i n r Hi Ht E. pose proof (both_name total f g i Hf Hg) as H. rewrite E in H. destruct (ident f g i) as [b r'| | | |]; cbn in H; try contradiction.
  destruct H as [_ (-> & H & _)]. split; [exact (at1_sfx _ _ _ _ _ H)|]. exact (at1_loc _ _ _ _ Hi H).
Qed.
Section Lists.
Context {A : Type}.
Variables (Q : A -> Prop) (p : parser A).
Hypothesis Hp : gives Q p.
Lemma gives_repeat0 : gives (Forall Q) (repeat0 p).
Proof.
  intros i. unfold repeat0. generalize (S (length i)) as n. intros n. revert i. induction n as [|n IH]; intros i l r Hi Ht E; [discriminate|]. cbn [repeat_loop] in E.
  destruct (p i) as [a j| | | |] eqn:Ep; try discriminate.
  - destruct (length j =? length i)%nat; [discriminate|]. destruct (Hp i a j Hi Ht Ep) as [Sj Qa]. destruct (repeat_loop n p j) as [l' r'| | | |] eqn:El; try discriminate. injection E as <- <-.
    destruct (IH j l' r' (sfx_trans _ _ _ Hi Sj) (sfx_text _ _ Sj Ht) El) as [Sr Ql]. split; [exact (sfx_trans _ _ _ Sj Sr)|constructor; assumption].
  - injection E as <- <-. split; [apply sfx_refl|constructor].
Qed.
Lemma gives_repeat1 : gives (Forall Q) (repeat1 p).
Proof. unfold repeat1. eapply gives_bind; [exact Hp|]. intros a Ha. eapply gives_bind; [exact gives_repeat0|]. intros l Hl. apply gives_ret. constructor; assumption. Qed.
Lemma gives_punctuated : gives (fun x => Forall (fun e => Q (fst e)) (p_values x)) (lpunctuated total p).
Proof.
  assert (Hf : gives (fun e => Q (fst e)) (elem_f total p)).
  { unfold elem_f. eapply gives_bind; [exact Hp|]. intros a Ha. eapply gives_bind; [apply gives_ws, gives_char|]. intros s _. apply gives_ret. exact Ha. }
  assert (Hg : gives (fun e => Q (fst (fst e))) (elem_g total p)).
  { unfold elem_g. eapply gives_bind; [exact Hp|]. intros a Ha. eapply gives_bind; [apply gives_opt, gives_ws, gives_char|]. intros s _. apply gives_ret. exact Ha. }
  change (lpunctuated total p) with (punctuate (elem_f total p) (elem_g total p)). unfold punctuate.
  assert (L : forall n acc prev i x r i0, sfx src i0 -> text i0 -> sfx i0 i -> Forall (fun e => Q (fst e)) acc ->
     match prev with Some s => sfx i0 s | None => True end ->
     punct_loop n (elem_f total p) (elem_g total p) acc prev i = POk x r -> sfx i0 r /\ Forall (fun e => Q (fst e)) (p_values x)).
  { induction n as [|n IH]; intros acc prev i x r i0 H0 T0 Hi Hacc Hprev E; [discriminate|]. cbn [punct_loop] in E.
    destruct (elem_f total p i) as [a j| | | |] eqn:Ef; try discriminate.
    - destruct (length j =? length i)%nat; [discriminate|]. destruct (Hf i a j (sfx_trans _ _ _ H0 Hi) (sfx_text _ _ Hi T0) Ef) as [Sj Qa].
      refine (IH _ _ _ _ _ i0 H0 T0 (sfx_trans _ _ _ Hi Sj) _ _ E); [apply Forall_app; split; [exact Hacc|constructor; [exact Qa|constructor]]|exact Hi].
    - destruct (elem_g total p i) as [[a t] j| | | |] eqn:Eg; try discriminate.
      + injection E as <- <-. destruct (Hg i (a, t) j (sfx_trans _ _ _ H0 Hi) (sfx_text _ _ Hi T0) Eg) as [Sj Qa]. split; [exact (sfx_trans _ _ _ Hi Sj)|].
        unfold p_values. cbn [p_init p_last]. apply Forall_app. split; [exact Hacc|constructor; [exact Qa|constructor]].
      + destruct prev as [s|]; [|discriminate]. destruct (elem_g total p s) as [[a t] j| | | |] eqn:Es; try discriminate. injection E as <- <-.
        destruct (Hg s (a, t) j (sfx_trans _ _ _ H0 Hprev) (sfx_text _ _ Hprev T0) Es) as [Sj Qa]. split; [exact (sfx_trans _ _ _ Hprev Sj)|].
        unfold p_values. cbn [p_init p_last]. apply Forall_app. split; [|constructor; [exact Qa|constructor]].
        destruct acc as [|b acc] using rev_ind; [constructor|]. rewrite removelast_last. apply Forall_app in Hacc as [Hacc _]. exact Hacc. }
  intros i x r Hi Ht E. refine (L _ _ _ _ _ _ i Hi Ht (sfx_refl i) _ _ E); [constructor|exact I].
Qed.
Lemma gives_surround o c : gives (fun x => Q (snd x)) (lsurround total o c p).
Proof.
  unfold lsurround. eapply gives_bind; [apply gives_char|]. intros lo _. apply gives_cut. eapply gives_bind; [exact Hp|]. intros a Ha.
  eapply gives_bind; [apply gives_ws, gives_char|]. intros lc _. apply gives_ret. exact Ha.
Qed.
End Lists.

(** A text read by both parsers. *)
Lemma reads_at {A} i r l (q : parser A) b : sfx src i -> sfx i r -> l = (offs total i, offs total r) -> q i = POk b r -> reads src l q b.
Proof.
  intros [g Hg] [t ->] -> E. exists g, t, r. split; [exact Hg|]. split; [|exact E].
  rewrite (offs_suffix src g) by exact Hg. f_equal. apply offs_suffix. rewrite Hg, <- app_assoc. reflexivity.
Qed.
Lemma with_span_ok {A} (p : parser A) i a l r : with_span total p i = POk (a, l) r -> p i = POk a r /\ l = (offs total i, offs total r).
Proof. unfold with_span. destruct (p i); try discriminate. intros E. injection E as <- <- <-. auto. Qed.
Lemma gives_span {A} (Q : A -> Prop) (p : parser A) : gives Q p -> gives (fun x => Q (fst x)) (with_span total p).
Proof. intros H i [a l] r Hi Ht E. apply with_span_ok in E as [E _]. exact (H i a r Hi Ht E). Qed.

(** Types. *)
Notation ok := (Forall (node_ok src)).
Definition parts (f : loc -> lty) : Prop := forall s, lty_loc (f s) = s /\ ok (tl (type_nodes (f s))).
Lemma ok_flat {A} (f : A -> list node) (l : list (A * option loc)) x : Forall (fun e => ok (f (fst e))) (l ++ [x]) -> ok (flat_map (fun e => f (fst e)) l ++ f (fst x)).
Proof.
  intros H. apply Forall_app in H as [Hl Hx]. apply Forall_app. split; [|inversion Hx; assumption]. induction l as [|e l IH]; [constructor|]. cbn [flat_map]. inversion Hl; subst.
  apply Forall_app. split; [assumption|apply IH; assumption].
Qed.
Lemma gives_type n : gives (fun t => ok (type_nodes t)) (lparse_type total n).
Proof.
  induction n as [|n IH]; intros i t r Hi Ht E; [discriminate|].
  assert (Hb : parse_type (S n) i = POk (er_ty t) r /\ sfx i r).
  { pose proof (both_type total (S n) i Ht) as H. rewrite E in H. destruct (parse_type (S n) i) as [b r'| | | |]; cbn in H; try contradiction.
    destruct H as [<- [-> H]]. split; [reflexivity|exact (tokd_sfx _ _ _ _ _ H)]. }
  destruct Hb as [Hb Hsr]. split; [exact Hsr|].
  cbn [lparse_type] in E. unfold pmap, pbind in E.
  set (body := alt lparse_basic (alt (lparse_generic total (lparse_type total n)) (alt (lparse_tuple total (lparse_type total n))
     (alt (lparse_array total (lparse_type total n)) (lparse_external total (lparse_type total n)))))) in E.
  assert (G : gives parts body).
  { unfold body. apply gives_alt; [|apply gives_alt; [|apply gives_alt; [|apply gives_alt]]].
    - unfold lparse_basic. intros j f k Hj Tj Ef. unfold pbind in Ef. destruct (parse_basic j) as [b k'| | | |] eqn:Eb; try discriminate.
      pose proof (spec_basic (length j) j Tj (le_n _)) as Hs. rewrite Eb in Hs. destruct Hs as ((g & Eg & _) & _).
      destruct b; try discriminate. injection Ef as <- <-. split; [exists g; exact Eg|]. intros s. split; [reflexivity|constructor].
    - assert (S1 : forall k kw, gives parts (lparse_single total k kw (lparse_type total n))).
      { intros k kw. unfold lparse_single. apply gives_cut, gives_map. eapply gives_weak; [|apply (gives_surround _ _ IH)]. intros [[o c] t'] H s. split; [reflexivity|exact H]. }
      unfold lparse_generic. eapply gives_bind; [apply (gives_span (fun _ => True)); eapply gives_any; intros m; apply spec_take_while|].
      intros [k kw] _. repeat match goal with |- gives _ (if ?b then _ else _) => destruct b end; try apply S1; [|apply gives_fail].
      unfold lparse_pair. apply gives_cut, gives_map. eapply gives_weak; [|apply (gives_surround (fun x => ok (type_nodes (fst (fst x))) /\ ok (type_nodes (snd x))))].
      + intros [[o c] [[a m] b]] [H1 H2] s. split; [reflexivity|]. apply Forall_app. split; assumption.
      + eapply gives_bind; [exact IH|]. intros a Ha. apply gives_then0. eapply gives_bind; [apply gives_char|]. intros m _. apply gives_then0.
        eapply gives_bind; [exact IH|]. intros b Hb'. apply gives_ret. split; assumption.
    - unfold lparse_tuple. apply gives_map. eapply gives_weak; [|apply (gives_surround _ _ (gives_punctuated _ _ (gives_ws _ _ IH)))].
      intros [[o c] [l x b]] H s. split; [reflexivity|]. cbn [type_nodes tl]. apply (ok_flat type_nodes). exact H.
    - unfold lparse_array. apply gives_map. eapply gives_weak; [|apply (gives_surround (fun x => ok (type_nodes (fst (fst x)))))].
      + intros [[o c] [[a m] b]] H s. split; [reflexivity|exact H].
      + eapply gives_bind; [apply gives_ws, IH|]. intros a Ha. eapply gives_bind; [apply gives_ws, gives_char|]. intros m _.
        eapply gives_bind; [apply gives_ws; eapply gives_any; intros x; apply spec_dec_uint|]. intros b _. apply gives_ret. exact Ha.
    - unfold lparse_external. eapply (gives_bind (fun _ => True)).
      { eapply gives_weak; [|apply gives_opt; apply (gives_repeat1 (fun _ => True))]; [auto|]. eapply gives_bind; [apply gives_name; reflexivity|]. intros s _.
        eapply gives_bind; [apply gives_tag|]. intros d _. apply gives_ret. exact I. }
      intros path _. eapply gives_bind; [apply gives_name; reflexivity|]. intros nm _.
      eapply gives_bind; [apply gives_opt, (gives_surround _ _ (gives_punctuated _ _ (gives_ws _ _ IH)))|]. intros gs Hgs. apply gives_ret. intros s. split; [reflexivity|].
      destruct gs as [[[o c] [l x b]]|]; [|constructor]. cbn [type_nodes tl]. apply (ok_flat type_nodes). exact Hgs. }
  destruct (with_span total body i) as [[f s] j| | | |] eqn:Ew; try discriminate. injection E as <- <-. apply with_span_ok in Ew as [Ew Es].
  destruct (G i f j Hi Ht Ew) as [_ Hf]. destruct (Hf s) as [Hl Hp].
  assert (Hn : node_ok src (NType (f s))).
  { cbn [node_ok]. exists (S n). apply (reads_at i j); [exact Hi|exact Hsr|congruence|exact Hb]. }
  destruct (f s); (constructor; [exact Hn|exact Hp]).
Qed.

(** Ids, comments. *)
Lemma gives_id : gives (fun o => ok (id_nodes o)) (opt (space0 ;; lparse_id total)).
Proof.
  eapply gives_weak; [|apply (gives_opt (fun i => node_ok src (NId i)))].
  - intros [i|] H; repeat constructor. exact H.
  - apply gives_then0. intros i [n l] r Hi Ht E. unfold lparse_id in E. apply with_span_ok in E as [E ->].
    unfold parse_id, pbind, char in E. destruct i as [|c i]; [discriminate|]. destruct (c =? 64) eqn:Ec; [|discriminate]. apply N.eqb_eq in Ec. subst c. apply dec_uint_inv in E. subst i.
    split; [exists (64 :: dec_str n); reflexivity|]. apply (at1_loc (64 :: dec_str n ++ r) r _ _ Hi). split; reflexivity.
Qed.
Lemma tokd_single_inv i r l k m P : tokd total i r [TSpan l k m] [Item k m P] -> exists g t k', i = g ++ t ++ k' /\ P t /\ l = (offs total (t ++ k'), offs total k').
Proof. intros H. inversion H; subst. eauto 10. Qed.
Lemma gives_comments : gives (fun c => ok (map NLine c)) (ws (lcomments total)).
Proof.
  apply gives_ws. eapply gives_weak; [|apply (gives_repeat0 (fun l => node_ok src (NLine l)))].
  - intros c H. rewrite Forall_map. exact H.
  - intros i l r Hi Ht E. pose proof (both_comment_line total i Ht) as H. rewrite E in H. destruct (comment_line i) as [b r'| | | |]; cbn in H; try contradiction.
    destruct H as [<- [-> H]]. split; [exact (tokd_sfx _ _ _ _ _ H)|]. apply tokd_single_inv in H as (g & t & k & -> & Ht' & El).
    exists t. split; [exact Ht'|]. destruct Hi as [h Hh]. apply (at1_loc (t ++ k) k); [|split; [reflexivity|exact El]]. exists (h ++ g). rewrite Hh, <- app_assoc. reflexivity.
Qed.
(** A comment in front that is not there. *)
Definition starts {X} (B : parser X) : Prop := forall j y k, B j = POk y k -> exists c j', j = c :: j' /\ is_mspace c = false /\ c <> 47.
Lemma skip_comments {X} (B : parser X) i x r : starts B -> (space0 ;; B) i = POk x r -> exists j, ws (lcomments total) i = POk [] j /\ (space0 ;; B) j = POk x r.
Proof.
  intros HB E. unfold pbind in E. destruct (space0 i) as [[] j| | | |] eqn:E0; try discriminate. unfold space0, pmap, pbind in E0.
  destruct (take_while 0 is_space i) as [s j'| | | |] eqn:Es; try discriminate. injection E0 as ->. apply take_inv in Es as (-> & Hs & _).
  destruct (HB j x r E) as (c & j' & -> & Hm & H47).
  assert (Hsp : is_space c = false). { destruct (is_space c) eqn:Ec; [|reflexivity]. apply space_ms in Ec. congruence. }
  assert (S0 : space0 (c :: j') = POk tt (c :: j')) by (apply space0_none; exact Hsp).
  exists (c :: j'). split; [|unfold pbind; rewrite S0; exact E].
  unfold ws, pbind, multispace0, pmap, pbind. rewrite (take_ok 0 is_mspace s (c :: j')); [|rewrite forallb_forall in *; intros y Hy; apply space_ms, Hs, Hy|exact Hm|lia].
  cbn [pret]. unfold lcomments, repeat0. cbn [repeat_loop]. unfold lcomment_line at 1. unfold pbind at 1. rewrite S0. unfold pbind at 1, lnamed, pmap, pbind at 1, with_span, pbind at 1.
  assert (Et : tag (tx "///") (c :: j') = PBack). { unfold tag. cbn. destruct (c =? 47) eqn:E47; [apply N.eqb_eq in E47; contradiction|]. destruct c as [|p]; [reflexivity|]. repeat (destruct p as [p|p|]; try reflexivity; try discriminate). }
  rewrite Et. reflexivity.
Qed.
Lemma gives_ptype : gives (fun t => ok (type_nodes t)) (lptype total).
Proof. intros i t r Hi Ht E. exact (gives_type _ i t r Hi Ht E). Qed.

(** Fields. *)
Lemma gives_ufield : gives (fun f => ok (ufield_nodes f)) (lparse_unnamed_field total).
Proof.
  intros i f r Hi Ht E.
  assert (Hb : parse_unnamed_field i = POk (er_ufield f) r /\ sfx i r).
  { pose proof (both_ufield total i Ht) as H. rewrite E in H. destruct (parse_unnamed_field i) as [b r'| | | |]; cbn in H; try contradiction.
    destruct H as [<- [-> H]]. split; [reflexivity|exact (tokd_sfx _ _ _ _ _ H)]. }
  destruct Hb as [Hb Hsr]. split; [exact Hsr|]. unfold lparse_unnamed_field, pmap, pbind at 1 in E.
  match type of E with match with_span total ?p i with _ => _ end = _ => set (body := p) in E; assert (G : gives (fun x => ok (type_nodes (fst x)) /\ ok (id_nodes (snd x))) body) end.
  { unfold body. eapply gives_bind; [apply gives_ws, gives_ptype|]. intros t Ht'. eapply gives_bind; [apply gives_id|]. intros d Hd. apply gives_ret. split; assumption. }
  destruct (with_span total body i) as [[[t d] s] j| | | |] eqn:Ew; try discriminate. injection E as <- <-. apply with_span_ok in Ew as [Ew Es].
  destruct (G i (t, d) j Hi Ht Ew) as [_ [G1 G2]]. constructor; [|apply Forall_app; split; assumption].
  apply (reads_at i j); [exact Hi|exact Hsr|exact Es|exact Hb].
Qed.
Lemma starts_ident {X} f g (K : lname -> parser X) : (forall c, f c = true -> is_mspace c = false /\ c <> 47) -> starts (pbind (lnamed total (ident f g)) K).
Proof.
  intros Hf j y k E. unfold pbind at 1, lnamed, pmap, pbind at 1, with_span in E. destruct (ident f g j) as [s r| | | |] eqn:Ei; try discriminate.
  apply ident_inv in Ei as (-> & c & t & -> & Hc & _). exists c, (t ++ r). split; [reflexivity|]. apply Hf. exact Hc.
Qed.
Lemma lower_start c : is_lower c = true -> is_mspace c = false /\ c <> 47.
Proof. unfold is_lower, is_mspace, is_space. intros H. apply andb_prop in H as [H1 H2]. apply N.leb_le in H1. apply N.leb_le in H2. split; [|lia]. repeat (apply orb_false_intro); apply N.eqb_neq; lia. Qed.
Lemma upper_start c : is_upper c = true -> is_mspace c = false /\ c <> 47.
Proof. unfold is_upper, is_mspace, is_space. intros H. apply andb_prop in H as [H1 H2]. apply N.leb_le in H1. apply N.leb_le in H2. split; [|lia]. repeat (apply orb_false_intro); apply N.eqb_neq; lia. Qed.
Lemma gives_nfield : gives (fun f => ok (nfield_nodes f)) (lparse_named_field total).
Proof.
  assert (G : gives (fun x => ok (type_nodes (snd (fst x))) /\ ok (id_nodes (snd x)))
    (space0 ;; pdo n <- lnamed total lower_name; space0 ;; pdo m <- span_of total (char 58); space0 ;; pdo t <- lptype total; pdo i <- opt (space0 ;; lparse_id total); pret (n, m, t, i))).
  { apply gives_then0. eapply gives_bind; [apply gives_name; reflexivity|]. intros n _. apply gives_then0. eapply gives_bind; [apply gives_char|]. intros m _. apply gives_then0.
    eapply gives_bind; [apply gives_ptype|]. intros t Ht'. eapply gives_bind; [apply gives_id|]. intros d Hd. apply gives_ret. split; assumption. }
  unfold lparse_named_field. eapply gives_bind; [apply gives_comments|]. intros c Hc j f r Hj Tj E.
  unfold pmap, pbind at 1 in E. match type of E with match with_span total ?p j with _ => _ end = _ => set (body := p) in * end.
  destruct (with_span total body j) as [[[[[n m] t] d] s] r'| | | |] eqn:Ew; try discriminate. injection E as <- <-. apply with_span_ok in Ew as [Ew Es].
  destruct (G j (n, m, t, d) r' Hj Tj Ew) as [Sr [G1 G2]]. split; [exact Sr|]. unfold nfield_nodes. cbn [lnf_comment lnf_ty lnf_id]. apply Forall_app. split; [exact Hc|].
  constructor; [|apply Forall_app; split; assumption]. apply (reads_at j r'); [exact Hj|exact Sr|exact Es|]. cbn [lnf_name lnf_ty lnf_id lnf_loc] in *.
  assert (St : starts (pdo n <- lnamed total lower_name; space0 ;; pdo m <- span_of total (char 58); space0 ;; pdo t <- lptype total; pdo i <- opt (space0 ;; lparse_id total); pret (n, m, t, i)))
    by (apply starts_ident; exact lower_start).
  destruct (skip_comments _ j _ r' St Ew) as (k & Hk & Ek).
  pose proof (both_nfield total j Tj) as H. unfold lparse_named_field at 1 in H. unfold pbind at 1 in H. rewrite Hk in H. unfold pmap, pbind at 1 in H. unfold with_span at 1 in H. rewrite Ek in H. cbn [pret] in H.
  destruct (parse_named_field j) as [b r''| | | |]; cbn in H; try contradiction. destruct H as [<- [-> H]]. reflexivity.
Qed.
Lemma ok_values {A} (f : A -> list node) (p : lpunct A) : Forall (fun e => ok (f (fst e))) (p_values p) -> ok (flat_map (fun e => f (fst e)) (p_values p)).
Proof. induction (p_values p) as [|e l IH]; intros H; [constructor|]. cbn [flat_map]. inversion H; subst. apply Forall_app. auto. Qed.
Lemma gives_peek {A} (Q : A -> Prop) f : (forall c, gives Q (f c)) -> gives Q (pbind peek_any f).
Proof. intros H. eapply gives_bind; [apply (gives_any peek_any 0 (fun _ => True)); intros n; apply spec_peek|]. intros c _. apply H. Qed.
Lemma gives_fields : gives (fun f => ok (fields_nodes f)) (lparse_fields total).
Proof.
  unfold lparse_fields. apply gives_peek. intros c. destruct (c =? 123); [|destruct (c =? 40)].
  - apply gives_map. eapply gives_weak; [|apply (gives_surround _ _ (gives_punctuated _ _ gives_nfield))]. intros [[o e] p] H. apply ok_values. exact H.
  - apply gives_map. eapply gives_weak; [|apply (gives_surround _ _ (gives_punctuated _ _ gives_ufield))]. intros [[o e] p] H. apply ok_values. exact H.
  - apply gives_ret. apply Forall_nil.
Qed.
Lemma gives_variant : gives (fun v => ok (variant_nodes v)) (lparse_variant total).
Proof.
  assert (G : gives (fun x => ok (fields_nodes (snd (fst x))) /\ ok (id_nodes (snd x)))
    (space0 ;; pdo n <- lnamed total type_name; space0 ;; pdo fs <- lparse_fields total; pdo i <- opt (space0 ;; lparse_id total); pret (n, fs, i))).
  { apply gives_then0. eapply gives_bind; [apply gives_name; reflexivity|]. intros n _. apply gives_then0.
    eapply gives_bind; [apply gives_fields|]. intros t Ht'. eapply gives_bind; [apply gives_id|]. intros d Hd. apply gives_ret. split; assumption. }
  unfold lparse_variant. eapply gives_bind; [apply gives_comments|]. intros c Hc j f r Hj Tj E.
  unfold pmap, pbind at 1 in E. match type of E with match with_span total ?p j with _ => _ end = _ => set (body := p) in * end.
  destruct (with_span total body j) as [[[[n t] d] s] r'| | | |] eqn:Ew; try discriminate. injection E as <- <-. apply with_span_ok in Ew as [Ew Es].
  destruct (G j (n, t, d) r' Hj Tj Ew) as [Sr [G1 G2]]. split; [exact Sr|]. unfold variant_nodes. cbn [lv_comment lv_fields lv_id]. apply Forall_app. split; [exact Hc|].
  constructor; [|apply Forall_app; split; assumption]. apply (reads_at j r'); [exact Hj|exact Sr|exact Es|]. cbn [lv_name lv_fields lv_id lv_loc] in *.
  assert (St : starts (pdo n <- lnamed total type_name; space0 ;; pdo fs <- lparse_fields total; pdo i <- opt (space0 ;; lparse_id total); pret (n, fs, i)))
    by (apply starts_ident; exact upper_start).
  destruct (skip_comments _ j _ r' St Ew) as (k & Hk & Ek).
  pose proof (both_variant total j Tj) as H. unfold lparse_variant at 1 in H. unfold pbind at 1 in H. rewrite Hk in H. unfold pmap, pbind at 1 in H. unfold with_span at 1 in H. rewrite Ek in H. cbn [pret] in H.
  destruct (parse_variant j) as [b r''| | | |]; cbn in H; try contradiction. destruct H as [<- [-> H]]. reflexivity.
Qed.
Lemma gives_generics : gives (fun _ => True) (opt (lparse_generics total)).
Proof.
  eapply gives_weak; [|apply (gives_opt (fun _ => True))]; [auto|]. unfold lparse_generics. apply gives_map.
  assert (H : gives (fun _ => True) (ws (lnamed total type_name))) by (apply gives_ws; eapply gives_weak; [|apply gives_name; reflexivity]; auto).
  eapply gives_weak; [|apply (gives_surround _ _ (gives_punctuated (fun _ => True) _ H))]. auto.
Qed.

(** Definitions. *)
Context {F : Type}.
Variable pf : str -> option F.
Definition raw_ok (d : ldef F) : Prop := lraw d /\ ok (def_nodes d).
Lemma gives_struct : gives raw_ok (lparse_struct total).
Proof.
  unfold lparse_struct. eapply gives_bind; [apply gives_tag|]. intros kw _. apply gives_then1, gives_cut. eapply gives_bind; [apply gives_name; reflexivity|]. intros n _.
  eapply gives_bind; [apply gives_generics|]. intros g _. apply gives_then0. eapply gives_bind; [apply gives_fields|]. intros fs Hf. apply gives_ret. split; [reflexivity|exact Hf].
Qed.
Lemma gives_enum : gives raw_ok (lparse_enum total).
Proof.
  unfold lparse_enum. eapply gives_bind; [apply gives_tag|]. intros kw _. apply gives_then1, gives_cut. eapply gives_bind; [apply gives_name; reflexivity|]. intros n _.
  eapply gives_bind; [apply gives_generics|]. intros g _. apply gives_then0. eapply gives_bind; [apply (gives_surround _ _ (gives_punctuated _ _ gives_variant))|].
  intros [[o c] vs] Hf. apply gives_ret. split; [reflexivity|apply ok_values; exact Hf].
Qed.
Lemma gives_alias : gives raw_ok (lparse_alias total).
Proof.
  unfold lparse_alias. eapply gives_bind; [apply gives_tag|]. intros kw _. apply gives_then1, gives_cut. eapply gives_bind; [apply gives_name; reflexivity|]. intros n _.
  eapply gives_bind; [apply gives_generics|]. intros g _. apply gives_then0. eapply gives_bind; [apply gives_char|]. intros e _. apply gives_then0.
  eapply gives_bind; [apply gives_ptype|]. intros t Ht. apply gives_then0. eapply gives_bind; [apply gives_char|]. intros m _. apply gives_ret. split; [reflexivity|exact Ht].
Qed.
Lemma gives_const : gives raw_ok (lparse_const total pf).
Proof.
  unfold lparse_const. eapply gives_bind; [apply gives_tag|]. intros kw _. apply gives_then1, gives_cut. eapply gives_bind; [apply gives_name; reflexivity|]. intros n _.
  eapply gives_bind; [apply gives_char|]. intros k _. apply gives_then0. eapply gives_bind; [apply gives_ptype|]. intros t Ht. apply gives_then0.
  eapply gives_bind; [apply gives_char|]. intros e _. apply gives_then0. eapply gives_bind; [apply (gives_span (fun _ => True)); eapply gives_any; intros x; apply (spec_literal pf)|].
  intros [v vl] _. eapply gives_bind; [apply gives_char|]. intros m _. apply gives_ret. split; [reflexivity|exact Ht].
Qed.
Lemma last_irrel_ {A} (x : A) l d d' : last (x :: l) d = last (x :: l) d'.
Proof. revert x. induction l as [|y l IH]; intros x; [reflexivity|]. exact (IH y). Qed.
Definition tail_text (l : list lname) : str := concat (map (fun n => [58; 58] ++ ln_text n) l).
Lemma sep_placed n : forall i l r, separated_loop n (lnamed total lower_name) (tag (tx "::")) i = POk l r ->
  i = tail_text l ++ r /\ forall d, snd (ln_loc d) = offs total i -> snd (ln_loc (last l d)) = offs total r.
Proof.
  induction n as [|n IH]; intros i l r E; [discriminate|]. cbn [separated_loop] in E.
  destruct ((tag (tx "::") ;; lnamed total lower_name) i) as [a j| | | |] eqn:Ea; try discriminate.
  - destruct (length j =? length i)%nat; [discriminate|]. destruct (separated_loop n (lnamed total lower_name) (tag (tx "::")) j) as [l' r'| | | |] eqn:El; try discriminate. injection E as <- <-.
    destruct (IH _ _ _ El) as [Hj Hl]. unfold pbind in Ea. destruct (tag (tx "::") i) as [[] k| | | |] eqn:Et; try discriminate. apply tag_inv in Et.
    pose proof (both_name total is_lower lower_tail k eq_refl eq_refl) as H. change (ident is_lower lower_tail) with lower_name in H. rewrite Ea in H.
    destruct (lower_name k) as [b r''| | | |]; cbn in H; try contradiction. destruct H as [_ (-> & [Hk Hloc] & _)]. split.
    + rewrite Et, Hk, Hj. unfold tail_text. cbn [map concat]. rewrite <- !app_assoc. reflexivity.
    + intros d _. assert (Ha : snd (ln_loc a) = offs total j) by (rewrite Hloc; reflexivity). specialize (Hl a Ha).
      destruct l' as [|x l']; [exact Hl|]. change (last (a :: x :: l') d) with (last (x :: l') d). rewrite (last_irrel_ x l' a d) in Hl. exact Hl.
  - injection E as <- <-. split; [reflexivity|]. intros d H. exact H.
Qed.
Lemma gives_import : gives raw_ok (lparse_import total).
Proof.
  unfold lparse_import. eapply gives_bind; [apply gives_tag|]. intros kw _. apply gives_then1, gives_cut. intros i d r Hi Ht E.
  unfold separated1, pbind at 1 2 in E. destruct (lnamed total lower_name i) as [s j| | | |] eqn:Es; try discriminate.
  pose proof (both_name total is_lower lower_tail i eq_refl eq_refl) as H. change (ident is_lower lower_tail) with lower_name in H. rewrite Es in H.
  destruct (lower_name i) as [b0 r0| | | |]; cbn in H; try contradiction. destruct H as [_ (-> & [Ei Hs] & _)].
  unfold pbind at 1 in E. destruct (separated_loop (S (length j)) (lnamed total lower_name) (tag (tx "::")) j) as [l k| | | |] eqn:El; try discriminate. cbn [pret] in E.
  destruct (sep_placed _ _ _ _ El) as [Ej Hl]. assert (Hsj : snd (ln_loc s) = offs total j) by (rewrite Hs; reflexivity). specialize (Hl s Hsj).
  unfold pbind at 1 in E. destruct (opt _ k) as [el m| | | |] eqn:Eo; try discriminate.
  assert (Hel : k = match el with Some (_, n) => [58; 58] ++ ln_text n | None => [] end ++ m /\ match el with Some (_, n) => snd (ln_loc n) = offs total m | None => m = k end).
  { unfold opt, pbind at 1 in Eo. destruct (span_of total (tag (tx "::")) k) as [ld q| | | |] eqn:Et; try discriminate; [|injection Eo as <- <-; auto].
    pose proof (both_tag total (tx "::") k) as Hk. rewrite Et in Hk. destruct (tag (tx "::") k) as [[] q'| | | |]; cbn in Hk; try contradiction. destruct Hk as [_ [Hk _]].
    unfold pbind at 1 in Eo. assert (Ha : alt (lnamed total type_name) (lnamed total type_name) q = lnamed total type_name q) by (unfold alt; destruct (lnamed total type_name q); reflexivity).
    rewrite Ha in Eo. destruct (lnamed total type_name q) as [n m'| | | |] eqn:En; try discriminate; cbn [pret] in Eo; injection Eo as <- <-; [|auto].
    pose proof (both_name total is_upper is_alnum q eq_refl eq_refl) as H. change (ident is_upper is_alnum) with type_name in H. rewrite En in H.
    destruct (type_name q) as [b r'| | | |]; cbn in H; try contradiction. destruct H as [_ (-> & [Hq Hn] & _)]. split; [|rewrite Hn; reflexivity].
    rewrite Hk, Hq, <- app_assoc. reflexivity. }
  destruct Hel as [Ek Hm].
  unfold pbind at 1 in E. destruct (span_of total (char 59) m) as [ls q| | | |] eqn:Em; try discriminate. injection E as <- <-.
  pose proof (both_char total 59 m) as Hc. rewrite Em in Hc. destruct (char 59 m) as [[] q'| | | |]; cbn in Hc; try contradiction. destruct Hc as [_ [Hc _]].
  assert (Ew : i = path_text (s :: l) el ++ m).
  { unfold path_text. rewrite Ei at 1. rewrite Ej at 1. rewrite Ek at 1. unfold tail_text. rewrite <- !app_assoc. reflexivity. }
  split.
  { exists (path_text (s :: l) el ++ [59]). rewrite Ew at 1. rewrite Hc, <- app_assoc. reflexivity. }
  split; [exact I|]. constructor; [|constructor]. cbn [node_ok]. split; [discriminate|]. apply (at1_loc i m _ _ Hi). split; [exact Ew|].
  unfold path_loc. f_equal; [rewrite Hs; reflexivity|]. destruct el as [[ld n]|]; [exact Hm|]. subst k.
  destruct l as [|x l]; [exact Hl|]. change (last (s :: x :: l) s) with (last (x :: l) s). exact Hl.
Qed.
Lemma gives_module p : gives (fun d => ok (def_nodes d)) p -> gives raw_ok (lparse_module total p).
Proof.
  intros Hp. unfold lparse_module. eapply gives_bind; [apply gives_tag|]. intros kw _. apply gives_then1, gives_cut. eapply gives_bind; [apply gives_name; reflexivity|]. intros n _.
  apply gives_then0. eapply gives_bind; [apply (gives_surround _ _ (gives_repeat0 _ _ (gives_ws _ _ Hp)))|]. intros [[o c] ds] Hd. apply gives_ret. split; [reflexivity|].
  cbn [def_nodes map app snd] in *. induction Hd as [|d ds Hd Hds IH]; [apply Forall_nil|]. cbn [flat_map]. apply Forall_app. auto.
Qed.
Lemma gives_definition n : gives (fun d => ok (def_nodes d)) (lparse_definition total pf n).
Proof.
  induction n as [|n IH]; intros i; [discriminate|]. cbn [lparse_definition]. revert i.
  match goal with |- forall i a r, sfx src i -> text i -> ?p i = POk a r -> _ => change (gives (fun d => ok (def_nodes d)) p) end.
  eapply gives_bind; [apply gives_comments|]. intros c Hc. eapply gives_bind; [apply gives_ws; eapply gives_any; intros x; apply spec_attributes|]. intros a _. apply gives_then0.
  eapply (gives_bind raw_ok).
  { apply gives_peek. intros k. destruct (k =? 109); [apply gives_module; exact IH|]. destruct (k =? 115); [apply gives_struct|]. destruct (k =? 101); [apply gives_enum|].
    destruct (k =? 99); [apply gives_const|]. destruct (k =? 116); [apply gives_alias|]. destruct (k =? 117); [apply gives_import|apply gives_fail]. }
  intros d [Hr Hd]. apply gives_ret. destruct d; cbn in Hr; subst; cbn [lwith_comment lwith_attributes def_nodes map app] in *; try exact Hd; apply Forall_app; split; assumption.
Qed.
Lemma gives_schema : gives (fun s => ok (schema_nodes s)) (lparse_schema total pf).
Proof.
  unfold lparse_schema. eapply (gives_bind (fun c => match c with Some c => ok (map NLine c) | None => True end)).
  { apply gives_opt. eapply gives_bind; [apply gives_comments|]. intros c Hc. eapply gives_bind; [eapply gives_any; intros x; apply spec_char|]. intros _ _. apply gives_ret. exact Hc. }
  intros c Hc. assert (Hp : gives (fun d => ok (def_nodes d)) (lpdefinition total pf)). { intros i d r Hi Ht E. exact (gives_definition _ i d r Hi Ht E). }
  eapply gives_bind; [apply (gives_repeat0 _ _ Hp)|]. intros ds Hd. eapply gives_bind; [eapply gives_any; intros x; apply spec_multispace0|]. intros _ _. apply gives_ret.
  unfold schema_nodes. cbn [ls_comment ls_defs]. apply Forall_app. split; [destruct c; [exact Hc|apply Forall_nil]|].
  induction Hd as [|d ds Hd Hds IH]; [apply Forall_nil|]. cbn [flat_map]. apply Forall_app. auto.
Qed.
Lemma nodes_ok s : text src -> lschema_parse pf src = Some s -> ok (schema_nodes s).
Proof.
  intros Ht H. unfold lschema_parse in H. destruct (lparse_schema total pf src) as [s' [|c r]| | | |] eqn:E; try discriminate. injection H as ->.
  exact (proj2 (gives_schema src s [] (sfx_refl src) Ht E)).
Qed.
End Src.
