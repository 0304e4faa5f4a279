(** The text before a syntax error can be completed (C74): an error of each parser is at a place up to which the text is the beginning of
    something its grammar (Grammar.v) allows. *)
From Verif Require Import Base Syntax Parser ParserSpec ParserTotal Grammar GrammarSound GrammarComplete Lsp SpanParser SpanProofs ErrParser ErrProofs.
Require Coq.Strings.String.
Import Coq.Strings.String.StringSyntax.
Local Open Scope N_scope.

(** The exception: six hexadecimal digits of an escape in a string, with a value that no character has. *)
Definition dead (pre : str) : Prop := exists p h v, pre = p ++ [92; 117; 123] ++ h /\ length h = 6%nat /\ Hex h v /\ ~ scalar v.
Lemma dead_app s p : dead p -> dead (s ++ p).
Proof. intros (q & h & v & -> & H). exists (s ++ q), h, v. rewrite <- app_assoc. auto. Qed.

Section Viable.
Context {A : Type}.
(** The input [i] of which [r] is left begins with something that [E] can complete. *)
Definition viable (E : str -> A -> Prop) (i r : str) : Prop := exists pre, i = pre ++ r /\ (dead pre \/ exists t a, text t /\ E (pre ++ t) a).
Lemma viable_pre (E : str -> A -> Prop) x j r : viable (fun s => E (x ++ s)) j r -> viable E (x ++ j) r.
Proof. intros (pre & -> & H). exists (x ++ pre). split; [apply app_assoc|]. destruct H as [H|(t & a & Ht & H)]; [left; apply dead_app, H|right]. exists t, a. rewrite <- app_assoc. auto. Qed.
Lemma viable_here (E : str -> A -> Prop) j : (exists t a, text t /\ E t a) -> viable E j j.
Proof. intros H. exists []. split; [reflexivity|]. right. exact H. Qed.
End Viable.
Lemma viable_sub {A B} (E1 : str -> A -> Prop) (E : str -> B -> Prop) j r : viable E1 j r -> (forall s a, E1 s a -> exists t b, text t /\ E (s ++ t) b) -> viable E j r.
Proof.
  intros (pre & -> & [H|(t & a & Ht & H)]) K; exists pre; (split; [reflexivity|]); [left; exact H|right]. destruct (K _ _ H) as (t' & b & Ht' & Hb).
  exists (t ++ t'), b. rewrite app_assoc. split; [apply Forall_app; auto|exact Hb].
Qed.
Lemma viable_mono {A B} (E1 : str -> A -> Prop) (E : str -> B -> Prop) j r : viable E1 j r -> (forall s a, E1 s a -> exists b, E s b) -> viable E j r.
Proof. intros H K. apply (viable_sub _ _ _ _ H). intros s a Hs. destruct (K s a Hs) as [b Hb]. exists [], b. rewrite app_nil_r. split; [constructor|exact Hb]. Qed.

Lemma text_b s : forallb is_scalar s = true -> text s.
Proof. intros H. apply Forall_forall. intros c Hc. rewrite forallb_forall in H. specialize (H c Hc). unfold is_scalar in H. unfold scalar. lia. Qed.
Ltac texts := apply text_b; reflexivity.
Lemma retext {A} (E : str -> A -> Prop) s s' a : E s a -> s = s' -> E s' a. Proof. intros H <-. exact H. Qed.

(** * Taking apart a failing run *)
Lemma ebind_err {A B} (p : eparser A) (f : A -> eparser B) i c e r : ebind p f i = EErr c e r -> p i = EErr c e r \/ exists a j, p i = EOk a j /\ f a j = EErr c e r.
Proof. unfold ebind. destruct (p i) as [a j|c' e' r'| |]; intros H; try discriminate; [right; eauto|left; congruence]. Qed.
Lemma ebind_ok {A B} (p : eparser A) (f : A -> eparser B) i b r : ebind p f i = EOk b r -> exists a j, p i = EOk a j /\ f a j = EOk b r.
Proof. unfold ebind. destruct (p i) as [a j|c e j| |]; intros H; try discriminate. eauto. Qed.
Lemma emap_err {A B} (f : A -> B) (p : eparser A) i c e r : emap f p i = EErr c e r -> p i = EErr c e r.
Proof. intros H. apply ebind_err in H as [H|(a & j & _ & H)]; [exact H|discriminate]. Qed.
Lemma ecut_err {A} (p : eparser A) i c e r : ecut p i = EErr c e r -> exists c', p i = EErr c' e r.
Proof. unfold ecut. destruct (p i) as [a j|[] e' r'| |]; intros H; try discriminate; eexists; f_equal; congruence. Qed.
Lemma ealt_err {A} (p q : eparser A) i c e r : ealt p q i = EErr c e r -> (c = true /\ p i = EErr true e r) \/ (exists e' r', p i = EErr false e' r') /\ q i = EErr c e r.
Proof. unfold ealt. destruct (p i) as [a j|[] e' r'| |]; intros H; try discriminate; [left; split; congruence|right; eauto]. Qed.
Lemma eopt_err {A} (p : eparser A) i c e r : eopt p i = EErr c e r -> c = true /\ p i = EErr true e r.
Proof. unfold eopt. destruct (p i) as [a j|[] e' r'| |]; intros H; try discriminate. split; congruence. Qed.
Lemma within_err {A} ly at_ (p : eparser A) i c e r : within ly at_ p i = EErr c e r -> exists e', p i = EErr c e' r.
Proof. unfold within. destruct (p i) as [a j|c' e' r'| |]; intros H; try discriminate. exists e'. congruence. Qed.

Section Total.
Variable total : N.
Lemma prim_err {A} ly (p : parser A) i c e r : prim total ly p i = EErr c e r -> r = i /\ (p i = PBack /\ c = false \/ p i = PCut /\ c = true).
Proof. unfold prim. destruct (p i); intros H; try discriminate; (split; [congruence|]); [left|right]; split; congruence. Qed.
Lemma prim_ok {A} ly (p : parser A) i a r : prim total ly p i = EOk a r -> p i = POk a r.
Proof. unfold prim. destruct (p i); intros H; try discriminate; congruence. Qed.
Lemma ecause_err {A} ly k (p : eparser A) i c e r : ecause total ly k p i = EErr c e r -> exists e', p i = EErr c e' r.
Proof. unfold ecause. destruct (p i) as [a j|c' e' r'| |]; intros H; try discriminate. exists e'. congruence. Qed.
Lemma ews_err {A} ly (p : eparser A) i c e r : ews total ly p i = EErr c e r -> exists b j, i = b ++ j /\ White b /\ p j = EErr c e r.
Proof.
  intros H. apply ebind_err in H as [H|(a & j & H1 & H)].
  - apply prim_err in H as [_ [[H _]|[H _]]]; unfold multispace0, pmap, pbind, take_while in H; destruct (span is_mspace i) as [x y]; discriminate.
  - apply prim_ok in H1. apply mspace_inv in H1 as (b & -> & Hb & _). eauto.
Qed.
Lemma ews_char_err ly k i c e r : ews total ly (prim total ly (char k)) i = EErr c e r -> exists b, i = b ++ r /\ White b.
Proof. intros H. apply ews_err in H as (b & j & -> & Hb & H). apply prim_err in H as [-> _]. eauto. Qed.
Lemma okp {A} Q (ep : eparser A) p i a r : follows total Q ep p -> ep i = EOk a r -> p i = POk a r.
Proof. intros H E. specialize (H i). rewrite E in H. destruct (p i); cbn in H; try tauto. destruct H as (-> & -> & _). reflexivity. Qed.
Lemma backp {A} Q (ep : eparser A) p i e r : follows total Q ep p -> ep i = EErr false e r -> p i = PBack.
Proof. intros H E. specialize (H i). rewrite E in H. destruct (p i); cbn in H; try tauto. Qed.
Lemma cutp {A} Q (ep : eparser A) p i e r : follows total Q ep p -> ep i = EErr true e r -> p i = PCut.
Proof. intros H E. specialize (H i). rewrite E in H. destruct (p i); cbn in H; try tauto. Qed.

(** [ep] fails where [E] can go on; [cuts]: of its errors that are not taken back. *)
Definition recovers {A B} (ep : eparser A) (E : str -> B -> Prop) : Prop := forall i c e r, ep i = EErr c e r -> viable E i r.
Definition cuts {A B} (ep : eparser A) (E : str -> B -> Prop) : Prop := forall i e r, ep i = EErr true e r -> viable E i r.
Lemma recovers_cuts {A B} (ep : eparser A) (E : str -> B -> Prop) : recovers ep E -> cuts ep E.
Proof. intros H i e r. apply H. Qed.
Lemma r_within {A B} ly at_ (ep : eparser A) (E : str -> B -> Prop) : recovers ep E -> recovers (within ly at_ ep) E.
Proof. intros H i c e r He. apply within_err in He as [e' He]. exact (H _ _ _ _ He). Qed.
Lemma r_opt {A B} (ep : eparser A) (E : str -> B -> Prop) : cuts ep E -> recovers (eopt ep) E.
Proof. intros H i c e r He. apply eopt_err in He as [-> He]. exact (H _ _ _ He). Qed.

(** * Lists *)
Section Lists.
Context {A : Type} (ep : eparser A) (p : parser A) (E : str -> A -> Prop) (Q : layer -> Prop) (ly : layer).
Hypothesis Hf : follows total Q ep p.
Hypothesis Hp : forall i a r, p i = POk a r -> exists s, i = s ++ r /\ E s a.
Hypothesis Hr : recovers ep E.

Lemma r_behind : recovers (ews total ly ep) (behind E).
Proof.
  intros i c e r He. apply ews_err in He as (b & j & -> & Hb & He). apply viable_pre. apply (viable_mono _ _ _ _ (Hr _ _ _ _ He)). intros s a Hs. exists a. constructor; assumption.
Qed.

Notation ef := (ebind ep (fun a => ebind (ews total ly (prim total ly comma)) (fun _ => eret a))).
Notation eg := (ebind ep (fun a => ebind (eopt (ews total ly (prim total ly comma))) (fun t => eret (a, match t with Some _ => true | None => false end)))).
Lemma eg_err i c e r : eg i = EErr c e r -> viable E i r.
Proof.
  intros H. apply ebind_err in H as [H|(a & j & _ & H)]; [exact (Hr _ _ _ _ H)|]. apply ebind_err in H as [H|(o & k & _ & H)]; [|discriminate].
  apply eopt_err in H as [_ H]. apply ews_err in H as (b & k & _ & _ & H). apply prim_err in H as [_ [[_ H]|[H _]]]; [discriminate|]. unfold comma, char in H. destruct k as [|x k]; [discriminate|]. destruct (x =? 44); discriminate.
Qed.
Lemma ef_ok i a r : ef i = EOk a r -> exists x b, i = x ++ b ++ w "," ++ r /\ E x a /\ White b.
Proof.
  intros H. apply ebind_ok in H as (a' & j & Ee & H). apply (okp _ _ _ _ _ _ Hf) in Ee. destruct (Hp _ _ _ Ee) as (x & -> & Hx).
  apply ebind_ok in H as (u & k & Ew & H). assert (a' = a /\ k = r) as [-> ->] by (split; unfold eret in H; congruence).
  assert (Hw : ws comma j = POk u r).
  { eapply okp; [|exact Ew]. apply (f_ws total (fun _ => True) ly (prim total ly comma) comma I). apply f_prim; [exact I|apply m_char]. }
  apply ws_inv in Hw as (b & k & -> & Hb & Hw). apply char_inv in Hw as ->. exists x, b. auto.
Qed.
Lemma punct_err i0 n : forall acc prev i c e r,
  (exists s, i0 = s ++ i /\ wpre E s acc) ->
  match prev with Some j => exists s l, i0 = s ++ j /\ wpre E s l | None => True end ->
  epunct_loop n ef eg acc prev i = EErr c e r -> viable (wlist E) i0 r.
Proof.
  assert (Hlast : forall s l j r, wpre E s l -> viable E j r -> viable (wlist E) (s ++ j) r).
  { intros s l j r Hs Hj. apply viable_pre. apply (viable_mono _ _ _ _ Hj). intros x a Hx. exists (Punct (l ++ []) a false). apply wpre_list; [exact Hs|constructor; exact Hx]. }
  induction n as [|n IH]; intros acc prev i c e r Hi Hprev H; cbn [epunct_loop] in H; [discriminate|].
  destruct (ef i) as [a j|[] e' j| |] eqn:Ef; try discriminate.
  - destruct (length j =? length i)%nat; [discriminate|]. destruct Hi as (s & Es & Hs). apply (IH _ _ _ _ _ _) in H; [exact H| |exists s, acc; auto].
    apply ef_ok in Ef as (x & b & -> & Hx & Hb). exists (s ++ x ++ b ++ w ","). split; [rewrite Es, <- !app_assoc; reflexivity|]. constructor; assumption.
  - assert (j = r) as -> by congruence. destruct Hi as (s & -> & Hs). apply (Hlast _ _ _ _ Hs). apply ebind_err in Ef as [Ef|(a & k & _ & Ef)]; [exact (Hr _ _ _ _ Ef)|].
    apply ebind_err in Ef as [Ef|(u & k' & _ & Ef)]; [|discriminate]. apply ews_err in Ef as (b & k' & _ & _ & Ef). apply prim_err in Ef as [_ [[_ Ef]|[Ef _]]]; [discriminate|]. unfold comma, char in Ef. destruct k' as [|x k']; [discriminate|]. destruct (x =? 44); discriminate.
  - destruct (eg i) as [[a t] k|[] e2 k| |] eqn:Eg; try discriminate.
    + assert (k = r) as -> by congruence. destruct Hi as (s & -> & Hs). exact (Hlast _ _ _ _ Hs (eg_err _ _ _ _ Eg)).
    + destruct prev as [j'|].
      * destruct (eg j') as [[a t] k'|c3 e3 k'| |] eqn:Eg'; try discriminate. assert (k' = r) as -> by congruence. destruct Hprev as (s & l & -> & Hs). exact (Hlast _ _ _ _ Hs (eg_err _ _ _ _ Eg')).
      * assert (k = r) as -> by congruence. destruct Hi as (s & -> & Hs). exact (Hlast _ _ _ _ Hs (eg_err _ _ _ _ Eg)).
Qed.
Lemma r_punctuated : recovers (epunctuated total ly ep) (wlist E).
Proof. intros i c e r H. refine (punct_err i _ [] None i c e r _ I H). exists []. split; [reflexivity|constructor]. Qed.
Lemma r_enclosed o k : (exists t a, text t /\ E t a) -> text [o] -> text [k] -> recovers (esurround total ly o k (epunctuated total ly ep)) (wenclosed E [o] [k]).
Proof.
  intros (t0 & a0 & Ht0 & H0) To Tk i c e r H. apply ebind_err in H as [H|(u & j & Hu & H)].
  - apply prim_err in H as [-> _]. apply viable_here. exists ([o] ++ t0 ++ [] ++ [k]), (Punct [] a0 false). split; [repeat (apply Forall_app; split); auto; constructor|]. constructor; [constructor; exact H0|constructor].
  - apply prim_ok, char_inv in Hu as ->. apply viable_pre. apply ecut_err in H as [c' H]. apply ebind_err in H as [H|(l & j' & Hl & H)].
    + apply (viable_sub _ _ _ _ (r_punctuated _ _ _ _ H)). intros s l Hs. exists ([] ++ [k]), l. split; [exact Tk|]. constructor; [exact Hs|constructor].
    + apply (okp (fun _ => True) _ (punctuated p)) in Hl; [|apply f_punctuated; [exact I|]].
      2:{ intros q. specialize (Hf q). destruct (ep q) as [x y|[] x y| |], (p q); cbn in *; unfold stopped in *; tauto. }
      apply (punctuated_sound p E Hp) in Hl as (s & -> & Hs). apply viable_pre. apply ebind_err in H as [H|(u2 & j2 & _ & H)]; [|discriminate].
      apply ews_char_err in H as (b & -> & Hb). apply viable_pre, viable_here. exists [k], l. split; [exact Tk|]. constructor; assumption.
Qed.
End Lists.

(** The element between an opening and a closing character. *)
Definition between {A} (E : str -> A -> Prop) (o k : N) (s : str) (a : A) : Prop := exists x b, s = [o] ++ x ++ b ++ [k] /\ E x a /\ White b.
Lemma r_between {A} (ep : eparser A) (E : str -> A -> Prop) ly o k : recovers ep E -> (forall i a r, ep i = EOk a r -> exists s, i = s ++ r /\ E s a) ->
  (exists t a, text t /\ E t a) -> text [o] -> text [k] -> recovers (esurround total ly o k ep) (between E o k).
Proof.
  intros Hr Hp (t0 & a0 & Ht0 & H0) To Tk i c e r H. apply ebind_err in H as [H|(u & j & Hu & H)].
  - apply prim_err in H as [-> _]. apply viable_here. exists ([o] ++ t0 ++ [] ++ [k]), a0. split; [repeat (apply Forall_app; split); auto; constructor|]. exists t0, []. repeat split; [exact H0|constructor].
  - apply prim_ok, char_inv in Hu as ->. apply viable_pre. apply ecut_err in H as [c' H]. apply ebind_err in H as [H|(l & j' & Hl & H)].
    + apply (viable_sub _ _ _ _ (Hr _ _ _ _ H)). intros s l Hs. exists ([] ++ [k]), l. split; [exact Tk|]. exists s, []. repeat split; [exact Hs|constructor].
    + apply Hp in Hl as (s & -> & Hs). apply viable_pre. apply ebind_err in H as [H|(u2 & j2 & _ & H)]; [|discriminate].
      apply ews_char_err in H as (b & -> & Hb). apply viable_pre, viable_here. exists [k], l. split; [exact Tk|]. exists s, b. auto.
Qed.
Ltac here := repeat apply viable_pre; apply viable_here.

(** * Types *)
Lemma u8_text : exists t a, text t /\ wtype t a. Proof. exists (w "u8"), (PPrim PrU8). split; [texts|exact (wt_prim PrU8)]. Qed.
Lemma behind_u8 : exists t a, text t /\ behind wtype t a.
Proof. exists ([] ++ w "u8"), (PPrim PrU8). split; [texts|]. constructor; [constructor|exact (wt_prim PrU8)]. Qed.
Lemma dec1 : Decimal (w "1") 1. Proof. split; [exact (Digits_snoc [] 0 49 Digits_nil ltac:(unfold digit; lia))|]. split; [discriminate|right; discriminate]. Qed.
Section Types.
Variables (ep : eparser pty) (p : parser pty).
Hypothesis Hf : follows total shown ep p.
Hypothesis Hp : forall i t r, p i = POk t r -> exists s, i = s ++ r /\ wtype s t.
Hypothesis Hr : recovers ep wtype.
Lemma Hpe i t r : ep i = EOk t r -> exists s, i = s ++ r /\ wtype s t.
Proof. intros H. apply (okp _ _ _ _ _ _ Hf) in H. exact (Hp _ _ _ H). Qed.

Definition wpair (s : str) (t : pty) : Prop := exists s1 k b1 b2 s2 v, s = s1 ++ b1 ++ w "," ++ b2 ++ s2 /\ t = PHashMap k v /\ wtype s1 k /\ Blank b1 /\ Blank b2 /\ wtype s2 v.
Notation epair := (ebind ep (fun k => ebind (prim total LyType space0) (fun _ => ebind (prim total LyType comma) (fun _ =>
    ebind (prim total LyType space0) (fun _ => ebind ep (fun v => eret (PHashMap k v))))))).
Lemma r_pair : recovers epair wpair.
Proof.
  intros i c e r H. apply ebind_err in H as [H|(k & j & Hk & H)].
  { apply (viable_sub _ _ _ _ (Hr _ _ _ _ H)). intros s a Hs. exists (w ",u8"), (PHashMap a (PPrim PrU8)). split; [texts|]. exists s, a, [], [], (w "u8"), (PPrim PrU8). repeat split; try (constructor; fail); try exact Hs. exact (wt_prim PrU8). }
  apply Hpe in Hk as (s & -> & Hs). assert (Hend : forall b, Blank b -> exists t a, text t /\ wpair (s ++ b ++ t) a).
  { intros b Hb. exists (w ",u8"), (PHashMap k (PPrim PrU8)). split; [texts|]. exists s, k, b, [], (w "u8"), (PPrim PrU8). repeat split; try (constructor; fail); try assumption. exact (wt_prim PrU8). }
  apply ebind_err in H as [H|(u & j1 & H1 & H)]. { apply prim_err in H as [-> _]. here. exact (Hend [] ltac:(constructor)). }
  apply prim_ok, space0_inv in H1 as (b & -> & Hb). apply ebind_err in H as [H|(u1 & j2 & H1 & H)]. { apply prim_err in H as [-> _]. here. exact (Hend b Hb). }
  apply prim_ok, char_inv in H1 as ->.
  assert (Hend2 : forall b2, Blank b2 -> exists t a, text t /\ wpair (s ++ b ++ [44] ++ b2 ++ t) a).
  { intros b2 Hb2. exists (w "u8"), (PHashMap k (PPrim PrU8)). split; [texts|]. exists s, k, b, b2, (w "u8"), (PPrim PrU8). repeat split; try (constructor; fail); try assumption. exact (wt_prim PrU8). }
  apply ebind_err in H as [H|(u2 & j3 & H1 & H)]. { apply prim_err in H as [-> _]. here. exact (Hend2 [] ltac:(constructor)). }
  apply prim_ok, space0_inv in H1 as (b2 & -> & Hb2). apply ebind_err in H as [H|(v & j4 & _ & H)]; [|discriminate].
  do 4 apply viable_pre. apply (viable_mono _ _ _ _ (Hr _ _ _ _ H)). intros s2 v Hv. exists (PHashMap k v). exists s, k, b, b2, s2, v. auto 10.
Qed.
Lemma ok_pair i t r : epair i = EOk t r -> exists s, i = s ++ r /\ wpair s t.
Proof.
  intros H. apply ebind_ok in H as (k & j & Hk & H). apply Hpe in Hk as (s & -> & Hs). apply ebind_ok in H as (u & j1 & H1 & H). apply prim_ok, space0_inv in H1 as (b & -> & Hb).
  apply ebind_ok in H as (u1 & j2 & H1 & H). apply prim_ok, char_inv in H1 as ->. apply ebind_ok in H as (u2 & j3 & H1 & H). apply prim_ok, space0_inv in H1 as (b2 & -> & Hb2).
  apply ebind_ok in H as (v & j4 & H1 & H). apply Hpe in H1 as (s2 & -> & Hs2). assert (t = PHashMap k v /\ r = j4) as [-> ->] by (split; unfold eret in H; congruence).
  exists (s ++ b ++ w "," ++ b2 ++ s2). split; [cut_text|]. exists s, k, b, b2, s2, v. auto 10.
Qed.
Lemma c_generic : cuts (eparse_generic total ep) wtype.
Proof.
  intros i e r H. apply ebind_err in H as [H|(k & j & Hk & H)]; [apply prim_err in H as [-> _]; here; exact u8_text|]. apply prim_ok, take_inv in Hk as (-> & _). apply viable_pre.
  assert (Hs : forall mk word (C : forall s t b, wtype s t -> White b -> wtype (word ++ s ++ b ++ w ">") (mk t)), word = k ++ w "<" -> eparse_single total mk ep j = EErr true e r -> viable (fun s => wtype (k ++ s)) j r).
  { intros mk word C -> H'. apply ecut_err in H' as [c' H']. apply emap_err in H'. refine (viable_mono _ _ _ _ (r_between ep wtype LyType 60 62 Hr Hpe u8_text _ _ _ _ _ _ H') _); [texts|texts|].
    intros s a (x & b & -> & Hx & Hb). exists (mk a). eapply retext; [exact (C x a b Hx Hb)|cut_text]. }
  repeat match type of H with (if ?c then _ else _) _ = _ => let E := fresh "E" in destruct c eqn:E; [apply str_eqb_eq in E|] end.
  - apply (Hs _ _ wt_vec); [subst k; reflexivity|exact H].
  - apply ecut_err in H as [c' H]. refine (viable_mono _ _ _ _ (r_between epair wpair LyType 60 62 r_pair ok_pair _ _ _ _ _ _ _ H) _); [|texts|texts|].
    + exists (w "u8,u8"), (PHashMap (PPrim PrU8) (PPrim PrU8)). split; [texts|]. exists (w "u8"), (PPrim PrU8), [], [], (w "u8"), (PPrim PrU8). repeat split; try (constructor; fail); exact (wt_prim PrU8).
    + intros s a (x & b & -> & (s1 & k1 & b1 & b2 & s2 & v & -> & -> & H1 & Hb1 & Hb2 & H2) & Hb). exists (PHashMap k1 v). eapply retext; [exact (wt_hash_map s1 k1 b1 b2 s2 v b H1 Hb1 Hb2 H2 Hb)|]. subst k. cut_text.
  - apply (Hs _ _ wt_hash_set); [subst k; reflexivity|exact H].
  - apply (Hs _ _ wt_option); [subst k; reflexivity|exact H].
  - apply (Hs _ _ wt_non_zero); [subst k; reflexivity|exact H].
  - discriminate.
Qed.
Lemma c_basic : cuts (eparse_basic total) wtype.
Proof.
  intros i e r H. exfalso. assert (Hn : forall A (q : parser A), nocut q -> forall j e' r', prim total LyType q j <> EErr true e' r').
  { intros A q Hq j e' r' H'. apply prim_err in H' as [_ [[_ H']|[H' _]]]; [discriminate|]. exact (Hq j H'). }
  apply ealt_err in H as [[_ H]|[_ H]]; [|apply ealt_err in H as [[_ H]|[_ H]]]; (apply ebind_err in H as [H|(a & j & _ & H)]; [revert H; apply Hn; (apply nc_take || apply nc_tag)|]).
  - destruct (basic_keyword a); discriminate.
  - discriminate.
  - discriminate.
Qed.
Lemma r_tuple : recovers (eparse_tuple total ep) wtype.
Proof.
  intros i c e r H. apply emap_err in H. refine (viable_mono _ _ _ _ (r_enclosed (ews total LyType ep) (ws p) (behind wtype) shown LyType _ (ws_sound p wtype Hp) (r_behind ep wtype LyType Hr) 40 41 behind_u8 _ _ _ _ _ _ H) _); [|texts|texts|].
  - apply f_ws; [split; discriminate|exact Hf].
  - intros s a Hs. exists (PTuple a). constructor. exact Hs.
Qed.
Definition warray (s : str) (t : pty) : Prop := exists b1 s1 t1 b2 b3 d n, s = b1 ++ s1 ++ b2 ++ w ";" ++ b3 ++ d /\ t = PArray t1 n /\ White b1 /\ wtype s1 t1 /\ White b2 /\ White b3 /\ Decimal d n /\ n < 2 ^ 32.
Notation earray := (ebind (ews total LyType ep) (fun t => ebind (ews total LyType (prim total LyType (char 59))) (fun _ =>
    ebind (ews total LyType (prim total LyType (dec_uint (2 ^ 32 - 1)))) (fun n => eret (PArray t n))))).
Lemma f_ews {A} ly (q : parser A) i a r : moves q -> ews total ly (prim total ly q) i = EOk a r -> ws q i = POk a r.
Proof. intros Hm H. eapply okp; [|exact H]. apply (f_ws total (fun _ => True) ly (prim total ly q) q I). apply f_prim; [exact I|exact Hm]. Qed.
Lemma r_arr : recovers earray warray.
Proof.
  intros i c e r H. assert (Hone : forall b1 s t b2 b3, White b1 -> wtype s t -> White b2 -> White b3 -> warray (b1 ++ s ++ b2 ++ w ";" ++ b3 ++ w "1") (PArray t 1)).
  { intros b1 s t b2 b3 H1 H2 H3 H4. exists b1, s, t, b2, b3, (w "1"), 1. repeat split; try assumption; apply dec1. }
  apply ebind_err in H as [H|(t & j & Ht & H)].
  { apply (r_behind ep wtype LyType Hr) in H. apply (viable_sub _ _ _ _ H). intros x a Hx. destruct Hx as [b s a Hb Hs]. exists (w ";1"), (PArray a 1). split; [texts|]. eapply retext; [apply (Hone b s a [] []); try assumption; constructor|cut_text]. }
  assert (Ht' : ws p i = POk t j) by (eapply okp; [apply f_ws; [|exact Hf]|exact Ht]; split; discriminate). apply (ws_sound p wtype Hp) in Ht' as (x & -> & Hx). destruct Hx as [b s t Hb Hs]. rewrite <- app_assoc.
  apply ebind_err in H as [H|(u & j1 & H1 & H)].
  { apply ews_char_err in H as (b2 & -> & Hb2). here. exists (w ";1"), (PArray t 1). split; [texts|]. eapply retext; [apply (Hone b s t b2 []); try assumption; constructor|cut_text]. }
  apply f_ews, ws_inv in H1 as (b2 & j2 & -> & Hb2 & H1); [|apply m_char]. apply char_inv in H1 as ->. apply ebind_err in H as [H|(n & j3 & _ & H)]; [|discriminate].
  apply ews_err in H as (b3 & j3 & -> & Hb3 & H). apply prim_err in H as [-> _]. here. exists (w "1"), (PArray t 1). split; [texts|]. exact (Hone b s t b2 b3 Hb Hs Hb2 Hb3).
Qed.
Lemma ok_arr i t r : earray i = EOk t r -> exists s, i = s ++ r /\ warray s t.
Proof.
  intros H. apply ebind_ok in H as (t1 & j & Ht & H). assert (Ht' : ws p i = POk t1 j) by (eapply okp; [apply f_ws; [|exact Hf]|exact Ht]; split; discriminate).
  apply ws_inv in Ht' as (b & j' & -> & Hb & Ht'). destruct (Hp _ _ _ Ht') as (s & -> & Hs). apply ebind_ok in H as (u & j1 & H1 & H). apply f_ews, ws_inv in H1 as (b2 & j2 & -> & Hb2 & H1); [|apply m_char]. apply char_inv in H1 as ->.
  apply ebind_ok in H as (n & j3 & H1 & H). apply f_ews, ws_inv in H1 as (b3 & j4 & -> & Hb3 & H1); [|apply m_uint]. apply dec_uint_inv in H1 as (d & -> & Hd & Hn). assert (t = PArray t1 n /\ r = j3) as [-> ->] by (split; unfold eret in H; congruence).
  exists (b ++ s ++ b2 ++ w ";" ++ b3 ++ d). split; [cut_text|]. exists b, s, t1, b2, b3, d, n. repeat split; try assumption; try apply Hd. lia.
Qed.
Lemma r_array : recovers (eparse_array total ep) wtype.
Proof.
  intros i c e r H. refine (viable_mono _ _ _ _ (r_between earray warray LyType 91 93 r_arr ok_arr _ _ _ _ _ _ _ H) _); [|texts|texts|].
  - exists ([] ++ w "u8" ++ [] ++ w ";" ++ [] ++ w "1"), (PArray (PPrim PrU8) 1). split; [texts|]. exists [], (w "u8"), (PPrim PrU8), [], [], (w "1"), 1. repeat split; try (constructor; fail); try apply dec1. exact (wt_prim PrU8).
  - intros s a (x & b & -> & (b1 & s1 & t1 & b2 & b3 & d & n & -> & -> & H1 & H2 & H3 & H4 & H5 & H6) & Hb). exists (PArray t1 n). eapply retext; [exact (wt_array b1 s1 t1 b2 b3 d n b H1 H2 H3 H4 H5 H6 Hb)|cut_text].
Qed.
Lemma refA : RefName (w "A"). Proof. exists 65, []. split; [reflexivity|]. split; [unfold upper; lia|constructor]. Qed.
Lemma esegs_nocut i e r : eopt (erepeat1 (ebind (eparse_segment total) (fun s => ebind (prim total LyType (tag (tx "::"))) (fun _ => eret s)))) i <> EErr true e r.
Proof.
  set (q := ebind (eparse_segment total) _). assert (Hq : forall j e' r', q j <> EErr true e' r').
  { intros j e' r' H. apply ebind_err in H as [H|(a & k & _ & H)].
    - apply ecause_err in H as [e2 H]. apply prim_err in H as [_ [[_ H]|[H _]]]; [discriminate|]. unfold lower_name, Parser.ident, pbind, one_of in H. destruct j as [|x j]; [discriminate|]. destruct (is_lower x); [|discriminate].
      unfold take_while in H. destruct (span _ j) as [y z]. discriminate.
    - apply ebind_err in H as [H|(u & k' & _ & H)]; [|discriminate]. apply prim_err in H as [_ [[_ H]|[H _]]]; [discriminate|]. exact (nc_tag _ _ H). }
  intros H. apply eopt_err in H as [_ H]. apply ebind_err in H as [H|(a & j & _ & H)]; [exact (Hq _ _ _ H)|]. apply ebind_err in H as [H|(l & k & _ & H)]; [|discriminate].
  unfold erepeat0 in H. revert H. generalize (S (length j)) as n. intros n. revert j. induction n as [|n IH]; intros j H; [discriminate|]. cbn [erepeat_loop] in H.
  destruct (q j) as [b k|[] e' k| |] eqn:Eq; try discriminate.
  - destruct (length k =? length j)%nat; [discriminate|]. destruct (erepeat_loop n q k) as [l k'|c2 e2 k'| |] eqn:El; try discriminate. apply (IH k). rewrite El. congruence.
  - exact (Hq _ _ _ Eq).
Qed.
Lemma r_external i c e r : parse_basic i = PBack -> parse_generic p i = PBack -> eparse_external total ep i = EErr c e r -> viable wtype i r.
Proof.
  intros Hb Hg H. apply ebind_err in H as [H|(path & j & Hpath & H)]; [apply eopt_err in H as Hc; destruct Hc as [-> _]; destruct (esegs_nocut _ _ _ H)|].
  assert (Hpath' : opt (repeat1 (pdo s <- lower_name; tag (tx "::") ;; pret s)) i = POk path j).
  { eapply okp; [|exact Hpath]. apply (f_opt total shown), f_repeat1. pose proof (f_segment total). apply f_bind; [assumption|]. intros a. apply f_bind; [apply f_prim; [split; discriminate|apply m_tag]|]. intros _. apply f_ret. }
  clear Hpath. set (l := match path with Some l => l | None => [] end) in *. assert (Hl : i = path_text l ++ j /\ Forall LowerName l).
  { subst l. apply opt_inv in Hpath' as [(l & -> & E)|(-> & -> & _)]; [|split; [reflexivity|constructor]]. apply bind_inv in E as (a & j1 & Ea & E). apply bind_inv in E as (l' & j' & El & E). apply ret_inv in E as [<- ->].
    apply bind_inv in Ea as (a' & j2 & Ea & Et). apply bind_inv in Et as (u & j3 & Et & Er). apply ret_inv in Er as [-> ->]. apply lower_name_inv in Ea as [-> Ha]. apply tag_inv' in Et as ->.
    apply path_sound in El as [-> Hl]. split; [unfold path_text; cbn [map concat]; rewrite <- !app_assoc; reflexivity|]. constructor; assumption. }
  clear Hpath'. destruct Hl as [-> Hl]. assert (Hsh : match l with x :: _ => ~ Shadowed x | [] => True end).
  { destruct l as [|x l']; [exact I|]. intros Hx. unfold path_text in Hb, Hg. cbn [map concat] in Hb, Hg. rewrite <- !app_assoc in Hb, Hg. inversion Hl; subst.
    destruct (shadowed_basic_or_generic p x (concat (map (fun s => s ++ w "::") l') ++ j) ltac:(assumption) Hx) as [K|K]; apply K; assumption. }
  apply ebind_err in H as [H|(name & j1 & Hn & H)].
  { apply prim_err in H as [-> _]. here. exists (w "A"), (PExternal l (w "A") None). split; [texts|]. eapply retext; [apply (wt_reference l (w "A") [] None Hl Hsh refA); constructor|rewrite app_nil_r; reflexivity]. }
  apply prim_ok, external_name_inv in Hn as [-> Hn]. apply ebind_err in H as [H|(gs & j2 & _ & H)]; [|discriminate].
  apply eopt_err in H as [-> H]. do 2 apply viable_pre. refine (viable_mono _ _ _ _ (r_enclosed (ews total LyType ep) (ws p) (behind wtype) shown LyType _ (ws_sound p wtype Hp) (r_behind ep wtype LyType Hr) 60 62 behind_u8 _ _ _ _ _ _ H) _); [|texts|texts|].
  - apply f_ws; [split; discriminate|exact Hf].
  - intros s a Hs. exists (PExternal l name (Some a)). apply wt_reference; try assumption. constructor. exact Hs.
Qed.
End Types.
Lemma r_type n : recovers (eparse_type total n) wtype.
Proof.
  induction n as [|n IH]; intros i c e r H; [discriminate|]. cbn [eparse_type] in H. apply within_err in H as [e' H]. clear e.
  pose proof (f_type total n) as Hf. pose proof (type_sound n) as Hp.
  apply ealt_err in H as [[-> H]|[(e1 & r1 & H1) H]]; [exact (c_basic _ _ _ H)|]. apply ealt_err in H as [[-> H]|[(e2 & r2 & H2) H]]; [exact (c_generic _ _ Hf Hp IH _ _ _ H)|].
  apply ealt_err in H as [[-> H]|[_ H]]; [exact (r_tuple _ _ Hf Hp IH _ _ _ _ H)|]. apply ealt_err in H as [[-> H]|[_ H]]; [exact (r_array _ _ Hf Hp IH _ _ _ _ H)|].
  apply (r_external _ _ Hf Hp IH i c e' r); [|exact (backp _ _ _ _ _ _ (f_generic total _ _ Hf) H2)|exact H]. exact (backp _ _ _ _ _ _ (f_basic total) H1).
Qed.
Lemma r_ptype : recovers (eptype total) wtype.
Proof. intros i. apply r_type. Qed.

(** * Ids, comments: never an error *)
Lemma prim_nocut {A} ly (q : parser A) i e r : nocut q -> prim total ly q i <> EErr true e r.
Proof. intros Hq H. apply prim_err in H as [_ [[_ H]|[H _]]]; [discriminate|exact (Hq i H)]. Qed.
Lemma take_till_nocut m f : nocut (take_till m f). Proof. apply nc_take. Qed.
Lemma optid_never ly i c e r : eoptid total ly i <> EErr c e r.
Proof.
  intros H. apply eopt_err in H as [_ H]. apply ebind_err in H as [H|(u & j & _ & H)]; [exact (prim_nocut _ _ _ _ _ nc_space0 H)|]. apply within_err in H as [e' H].
  apply ebind_err in H as [H|(u' & k & _ & H)]; [exact (prim_nocut _ _ _ _ _ (nc_char _) H)|exact (prim_nocut _ _ _ _ _ (nc_uint _) H)].
Qed.
Lemma line_nocut i e r : ecomment_line total i <> EErr true e r.
Proof.
  unfold ecomment_line. intros H. apply ebind_err in H as [H|(? & ? & _ & H)]; [exact (prim_nocut _ _ _ _ _ nc_space0 H)|]. apply ebind_err in H as [H|(? & ? & _ & H)]; [exact (prim_nocut _ _ _ _ _ (nc_tag _) H)|].
  apply ebind_err in H as [H|(? & ? & _ & H)]; [exact (prim_nocut _ _ _ _ _ nc_space0 H)|]. apply ebind_err in H as [H|(? & ? & _ & H)]; [exact (prim_nocut _ _ _ _ _ (take_till_nocut _ _) H)|].
  apply ebind_err in H as [H|(? & ? & _ & H)]; [exact (prim_nocut _ _ _ _ _ (nc_char _) H)|]. discriminate.
Qed.
Lemma repeat_never {A} (q : eparser A) n : (forall i e r, q i <> EErr true e r) -> forall i c e r, erepeat_loop n q i <> EErr c e r.
Proof.
  intros Hq. induction n as [|n IH]; intros i c e r H; [discriminate|]. cbn [erepeat_loop] in H. destruct (q i) as [b k|[] e' k| |] eqn:Eq; try discriminate.
  - destruct (length k =? length i)%nat; [discriminate|]. destruct (erepeat_loop n q k) as [l k'|c2 e2 k'| |] eqn:El; try discriminate. exact (IH _ _ _ _ El).
  - exact (Hq _ _ _ Eq).
Qed.
Lemma comments_never i c e r : ecomments total i <> EErr c e r.
Proof. intros H. apply within_err in H as [e' H]. exact (repeat_never _ _ line_nocut _ _ _ _ H). Qed.
Lemma ws_comments_never ly i c e r : ews total ly (ecomments total) i <> EErr c e r.
Proof. intros H. apply ews_err in H as (b & j & _ & _ & H). exact (comments_never _ _ _ _ H). Qed.
Lemma ws_comments_ok ly i c r : ews total ly (ecomments total) i = EOk c r -> exists b s, i = b ++ s ++ r /\ White b /\ wcomment s c.
Proof.
  intros H. apply ebind_ok in H as (u & j & Hu & H). apply prim_ok, mspace_inv in Hu as (b & -> & Hb & _). apply (okp _ _ _ _ _ _ (f_comments total)) in H. apply comments_sound in H as (s & -> & Hs). exists b, s. auto.
Qed.

(** * Fields, variants, parameters *)
Lemma typeA : TypeName (w "A"). Proof. exists 65, []. split; [reflexivity|]. split; [unfold upper; lia|constructor]. Qed.
Lemma lowera : LowerName (w "a"). Proof. exists 97, []. split; [reflexivity|]. split; [unfold lower; lia|constructor]. Qed.
Lemma constA : ConstName (w "A"). Proof. exists 65, []. split; [reflexivity|]. split; [unfold upper; lia|constructor]. Qed.
Lemma eptype_ok i t r : eptype total i = EOk t r -> exists s, i = s ++ r /\ wtype s t.
Proof. intros H. apply (okp _ _ _ _ _ _ (f_ptype total)) in H. exact (ptype_sound _ _ _ H). Qed.
Lemma r_ufield : recovers (eparse_unnamed_field total) wufield.
Proof.
  intros i c e r H. apply ebind_err in H as [H|(t & j & _ & H)].
  - apply ews_err in H as (b & j & -> & Hb & H). apply viable_pre. apply (viable_mono _ _ _ _ (r_ptype _ _ _ _ H)). intros s t Hs. exists (UField t None). eapply retext; [apply (wufield_intro b s t [] None Hb Hs); constructor|rewrite app_nil_r; reflexivity].
  - apply ebind_err in H as [H|(o & j' & _ & H)]; [destruct (optid_never _ _ _ _ _ H)|discriminate].
Qed.
Lemma ufield_u8 : exists t a, text t /\ wufield t a.
Proof. exists ([] ++ w "u8" ++ []), (UField (PPrim PrU8) None). split; [texts|]. constructor; [constructor|exact (wt_prim PrU8)|constructor]. Qed.
Lemma nfield_here b1 sc c b2 n b3 b4 st t : White b1 -> wcomment sc c -> Blank b2 -> LowerName n -> Blank b3 -> Blank b4 -> wtype st t -> wnfield (b1 ++ sc ++ b2 ++ n ++ b3 ++ w ":" ++ b4 ++ st) (NField c n t None).
Proof. intros. eapply retext; [apply (wnfield_intro b1 sc c b2 n b3 b4 st t [] None); try assumption; constructor|rewrite !app_nil_r; reflexivity]. Qed.
Lemma r_nfield : recovers (eparse_named_field total) wnfield.
Proof.
  pose proof (wt_prim PrU8 : wtype (w "u8") _) as Hu8.
  intros i c e r H. apply ebind_err in H as [H|(cm & j & Hc & H)]; [destruct (ws_comments_never _ _ _ _ _ H)|]. apply ws_comments_ok in Hc as (b1 & sc & -> & Hb1 & Hsc).
  assert (H1 : forall b2, Blank b2 -> exists t a, text t /\ wnfield (b1 ++ sc ++ b2 ++ t) a).
  { intros b2 Hb2. exists (w "a:u8"), (NField cm (w "a") (PPrim PrU8) None). split; [texts|]. eapply retext; [apply (nfield_here b1 sc cm b2 (w "a") [] [] (w "u8")); try assumption; try (constructor; fail); apply lowera|cut_text]. }
  apply ebind_err in H as [H|(u & j1 & Hu & H)]; [apply prim_err in H as [-> _]; here; exact (H1 [] ltac:(constructor))|]. apply prim_ok, space0_inv in Hu as (b2 & -> & Hb2).
  apply ebind_err in H as [H|(n & j2 & Hn & H)]; [apply ecause_err in H as [e' H]; apply prim_err in H as [-> _]; here; exact (H1 b2 Hb2)|].
  assert (Hn' : lower_name j1 = POk n j2). { eapply okp; [|exact Hn]. apply (f_cause total shown); [split; discriminate|]. apply f_prim; [split; discriminate|apply m_ident]. }
  apply lower_name_inv in Hn' as [-> Hn']. clear Hn.
  assert (H2 : forall b3, Blank b3 -> exists t a, text t /\ wnfield (b1 ++ sc ++ b2 ++ n ++ b3 ++ t) a).
  { intros b3 Hb3. exists (w ":u8"), (NField cm n (PPrim PrU8) None). split; [texts|]. eapply retext; [apply (nfield_here b1 sc cm b2 n b3 [] (w "u8")); try assumption; constructor|cut_text]. }
  apply ebind_err in H as [H|(u1 & j3 & Hu & H)]; [apply prim_err in H as [-> _]; here; exact (H2 [] ltac:(constructor))|]. apply prim_ok, space0_inv in Hu as (b3 & -> & Hb3).
  apply ebind_err in H as [H|(u2 & j4 & Hu & H)]; [apply prim_err in H as [-> _]; here; exact (H2 b3 Hb3)|]. apply prim_ok, char_inv in Hu as ->.
  apply ebind_err in H as [H|(u3 & j5 & Hu & H)].
  { apply prim_err in H as [-> _]; here. exists (w "u8"), (NField cm n (PPrim PrU8) None). split; [texts|]. eapply retext; [apply (nfield_here b1 sc cm b2 n b3 [] (w "u8")); try assumption; constructor|cut_text]. }
  apply prim_ok, space0_inv in Hu as (b4 & -> & Hb4).
  apply ebind_err in H as [H|(t & j6 & _ & H)].
  - do 7 apply viable_pre. apply (viable_mono _ _ _ _ (r_ptype _ _ _ _ H)). intros s t Hs. exists (NField cm n t None). exact (nfield_here b1 sc cm b2 n b3 b4 s t Hb1 Hsc Hb2 Hn' Hb3 Hb4 Hs).
  - apply ebind_err in H as [H|(o & j' & _ & H)]; [destruct (optid_never _ _ _ _ _ H)|discriminate].
Qed.
Lemma nfield_u8 : exists t a, text t /\ wnfield t a.
Proof. exists ([] ++ [] ++ [] ++ w "a" ++ [] ++ w ":" ++ [] ++ w "u8"), (NField [] (w "a") (PPrim PrU8) None). split; [texts|]. apply nfield_here; try (constructor; fail); [apply lowera|exact (wt_prim PrU8)]. Qed.
Definition wshown_fields (s : str) (fs : pfields) : Prop := wfields s fs /\ fs <> FUnit.
Lemma fields_u8 : wshown_fields (w "(u8)") (FUnnamed (Punct [] (UField (PPrim PrU8) None) false)).
Proof.
  split; [|discriminate]. constructor. apply (retext _ (w "(" ++ w "u8" ++ [] ++ w ")")); [|reflexivity]. constructor; [|constructor]. constructor.
  apply (retext _ ([] ++ w "u8" ++ [])); [|reflexivity]. constructor; [constructor|exact (wt_prim PrU8)|constructor].
Qed.
Lemma r_fields : recovers (eparse_fields total) wshown_fields.
Proof.
  intros i c e r H. apply within_err in H as [e' H]. apply ebind_err in H as [H|(k & j & Hk & H)]; [apply prim_err in H as [-> _]; here; eexists _, _; split; [|exact fields_u8]; texts|].
  apply prim_ok, peek_inv in Hk as [-> _]. destruct (k =? 123); [|destruct (k =? 40); [|discriminate]]; apply emap_err in H.
  - refine (viable_mono _ _ _ _ (r_enclosed _ _ wnfield shown LyFields (f_nfield total) nfield_sound r_nfield 123 125 nfield_u8 _ _ _ _ _ _ H) _); [texts|texts|]. intros s a Hs. exists (FNamed a). split; [constructor; exact Hs|discriminate].
  - refine (viable_mono _ _ _ _ (r_enclosed _ _ wufield shown LyFields (f_ufield total) ufield_sound r_ufield 40 41 ufield_u8 _ _ _ _ _ _ H) _); [texts|texts|]. intros s a Hs. exists (FUnnamed a). split; [constructor; exact Hs|discriminate].
Qed.
Lemma name_ok ly k (q : parser str) i n r : shown ly -> moves q -> ecause total ly k (prim total ly q) i = EOk n r -> q i = POk n r.
Proof. intros Hl Hm H. eapply okp; [|exact H]. apply (f_cause total shown); [exact Hl|]. apply f_prim; [exact Hl|exact Hm]. Qed.
Lemma name_err {A} ly k (q : parser A) i c e r : ecause total ly k (prim total ly q) i = EErr c e r -> r = i.
Proof. intros H. apply ecause_err in H as [e' H]. apply prim_err in H as [-> _]. reflexivity. Qed.
Lemma r_variant : recovers (eparse_variant total) wvariant.
Proof.
  intros i c e r H. apply ebind_err in H as [H|(cm & j & Hc & H)]; [destruct (ws_comments_never _ _ _ _ _ H)|]. apply ws_comments_ok in Hc as (b1 & sc & -> & Hb1 & Hsc).
  assert (H1 : forall b2, Blank b2 -> exists t a, text t /\ wvariant (b1 ++ sc ++ b2 ++ t) a).
  { intros b2 Hb2. exists (w "A" ++ [] ++ [] ++ []), (PVariant cm (w "A") FUnit None). split; [texts|]. constructor; try assumption; try (constructor; fail). apply typeA. }
  apply ebind_err in H as [H|(u & j1 & Hu & H)]; [apply prim_err in H as [-> _]; here; exact (H1 [] ltac:(constructor))|]. apply prim_ok, space0_inv in Hu as (b2 & -> & Hb2).
  apply ebind_err in H as [H|(n & j2 & Hn & H)]; [apply name_err in H as ->; here; exact (H1 b2 Hb2)|]. apply name_ok, type_name_inv in Hn as [-> Hn]; [|split; discriminate|apply m_ident].
  assert (H2 : forall b3, Blank b3 -> exists t a, text t /\ wvariant (b1 ++ sc ++ b2 ++ n ++ b3 ++ t) a).
  { intros b3 Hb3. exists ([] ++ []), (PVariant cm n FUnit None). split; [texts|]. constructor; try assumption; constructor. }
  apply ebind_err in H as [H|(u1 & j3 & Hu & H)]; [apply prim_err in H as [-> _]; here; exact (H2 [] ltac:(constructor))|]. apply prim_ok, space0_inv in Hu as (b3 & -> & Hb3).
  apply ebind_err in H as [H|(fs & j4 & _ & H)].
  - do 5 apply viable_pre. apply (viable_mono _ _ _ _ (r_fields _ _ _ _ H)). intros s a [Hs _]. exists (PVariant cm n a None). eapply retext; [apply (wvariant_intro b1 sc cm b2 n b3 s a [] None); try assumption; constructor|rewrite app_nil_r; reflexivity].
  - apply ebind_err in H as [H|(o & j' & _ & H)]; [destruct (optid_never _ _ _ _ _ H)|discriminate].
Qed.
Lemma variant_A : exists t a, text t /\ wvariant t a.
Proof. exists ([] ++ [] ++ [] ++ w "A" ++ [] ++ [] ++ []), (PVariant [] (w "A") FUnit None). split; [texts|]. constructor; try (constructor; fail). apply typeA. Qed.
Lemma r_generics : recovers (eparse_generics total) (wenclosed (behind wname) (w "<") (w ">")).
Proof.
  intros i c e r H. apply within_err in H as [e' H]. eapply (r_enclosed _ (ws type_name) (behind wname) shown LyGenerics); [| | | | | |exact H].
  - apply f_ws; [split; discriminate|]. apply f_cause; [split; discriminate|]. apply f_prim; [split; discriminate|apply m_ident].
  - apply (ws_sound type_name wname). intros j a q Hj. apply type_name_inv in Hj as [-> Hj]. exists a. split; [reflexivity|]. constructor. exact Hj.
  - apply r_behind. intros j c2 e2 r2 Hj. apply name_err in Hj as ->. here. exists (w "A"), (w "A"). split; [texts|]. constructor. apply typeA.
  - exists ([] ++ w "A"), (w "A"). split; [texts|]. constructor; [constructor|constructor; apply typeA].
  - texts.
  - texts.
Qed.
End Total.
