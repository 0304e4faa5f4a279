(** What the parser accepts is in the grammar, with the meaning the parser gives it. *)
From Verif Require Import Base Syntax Parser ParserSpec ParserTotal ParserRound Grammar.
Require Coq.Strings.String.
Import Coq.Strings.String.StringSyntax.
Local Open Scope N_scope.

(** * Inversion of the combinators *)
Lemma bind_inv {A B} (p : parser A) (f : A -> parser B) i b r : pbind p f i = POk b r -> exists a j, p i = POk a j /\ f a j = POk b r.
Proof. unfold pbind. destruct (p i) as [a j| | | |]; try discriminate. intros H. exists a, j. auto. Qed.
Lemma ret_inv {A} (a b : A) i r : pret a i = POk b r -> a = b /\ i = r.
Proof. unfold pret. intros H. split; congruence. Qed.
Lemma map_inv {A B} (f : A -> B) (p : parser A) i b r : pmap f p i = POk b r -> exists a, p i = POk a r /\ b = f a.
Proof. intros H. apply bind_inv in H as (a & j & H & H'). apply ret_inv in H' as [<- ->]. eauto. Qed.
Lemma cut_inv {A} (p : parser A) i a r : cut_err p i = POk a r -> p i = POk a r.
Proof. unfold cut_err. destruct (p i); try discriminate; auto. Qed.
Lemma alt_inv {A} (p q : parser A) i a r : alt p q i = POk a r -> p i = POk a r \/ q i = POk a r.
Proof. unfold alt. destruct (p i); try discriminate; auto. Qed.
Lemma opt_inv {A} (p : parser A) i a r : opt p i = POk a r -> (exists x, a = Some x /\ p i = POk x r) \/ (a = None /\ i = r /\ p i = PBack).
Proof. unfold opt. destruct (p i) as [x j| | | |]; try discriminate; intros H; [left; exists x; split; congruence|right; repeat split; congruence]. Qed.
Lemma char_inv c i u r : char c i = POk u r -> i = [c] ++ r.
Proof. destruct i as [|x i]; cbn [char]; [discriminate|]. destruct (x =? c) eqn:E; [|discriminate]. apply N.eqb_eq in E. intros H. cbn [app]. congruence. Qed.
Lemma tag_inv' s i u r : tag s i = POk u r -> i = s ++ r.
Proof. destruct u. apply tag_inv. Qed.
Lemma take_inv m f i a r : take_while m f i = POk a r -> i = a ++ r /\ forallb f a = true /\ (m <= length a)%nat /\ match r with c :: _ => f c = false | [] => True end.
Proof.
  unfold take_while. destruct (span_split f i) as (a' & r' & -> & -> & Hf & Hr). destruct (length a' <? m)%nat eqn:E; [discriminate|]. apply Nat.ltb_ge in E.
  intros H. assert (a' = a /\ r' = r) as [-> ->] by (split; congruence). auto.
Qed.
Lemma peek_inv i c r : peek_any i = POk c r -> r = i /\ exists t, i = c :: t.
Proof. destruct i as [|x i]; cbn; [discriminate|]. intros H. assert (x = c /\ r = x :: i) as [-> ->] by (split; congruence). eauto. Qed.
Lemma blank_b s : forallb is_space s = true -> Blank s.
Proof. intros H. apply Forall_forall. intros c Hc. rewrite forallb_forall in H. specialize (H c Hc). unfold is_space in H. apply orb_true_iff in H as [H|H]; apply N.eqb_eq in H; auto. Qed.
Lemma white_b s : forallb is_mspace s = true -> White s.
Proof. intros H. apply Forall_forall. intros c Hc. rewrite forallb_forall in H. specialize (H c Hc). unfold is_mspace in H. repeat (apply orb_true_iff in H as [H|H]); apply N.eqb_eq in H; auto. Qed.
Lemma space0_inv i u r : space0 i = POk u r -> exists b, i = b ++ r /\ Blank b.
Proof. intros H. apply map_inv in H as (a & H & _). apply take_inv in H as (-> & H & _). eauto using blank_b. Qed.
Lemma space1_inv i u r : space1 i = POk u r -> exists b, i = b ++ r /\ Blank b /\ b <> [].
Proof. intros H. apply map_inv in H as (a & H & _). apply take_inv in H as (-> & H & Hl & _). exists a. split; [reflexivity|]. split; [apply blank_b, H|]. destruct a; [cbn in Hl; lia|discriminate]. Qed.
Lemma mspace_inv i u r : multispace0 i = POk u r -> exists b, i = b ++ r /\ White b /\ match r with c :: _ => is_mspace c = false | [] => True end.
Proof. intros H. apply map_inv in H as (a & H & _). apply take_inv in H as (-> & H & _ & Hr). eauto using white_b. Qed.
Lemma ws_inv {A} (p : parser A) i a r : ws p i = POk a r -> exists b j, i = b ++ j /\ White b /\ p j = POk a r.
Proof. intros H. apply bind_inv in H as (u & j & H & H'). apply mspace_inv in H as (b & -> & Hb & _). eauto. Qed.

(** * Names and numbers *)
Lemma ident_inv f g i s r : ident f g i = POk s r -> i = s ++ r /\ exists c t, s = c :: t /\ f c = true /\ forallb g t = true.
Proof.
  intros H. apply bind_inv in H as (c & j & H & H'). apply bind_inv in H' as (t & j' & H' & H''). apply ret_inv in H'' as [<- ->].
  destruct i as [|x i]; cbn [one_of] in H; [discriminate|]. destruct (f x) eqn:E; [|discriminate]. assert (x = c /\ i = j) as [-> ->] by (split; congruence).
  apply take_inv in H' as (-> & Ht & _). split; [reflexivity|]. eauto.
Qed.
Lemma named_inv f g (P Q : N -> Prop) i s r : (forall c, f c = true -> P c) -> (forall c, g c = true -> Q c) -> ident f g i = POk s r -> i = s ++ r /\ named P Q s.
Proof.
  intros Hf Hg H. apply ident_inv in H as (-> & c & t & -> & Hc & Ht). split; [reflexivity|]. exists c, t. split; [reflexivity|]. split; [auto|].
  apply Forall_forall. intros x Hx. rewrite forallb_forall in Ht. auto.
Qed.
Lemma type_name_inv i s r : type_name i = POk s r -> i = s ++ r /\ TypeName s.
Proof. apply named_inv; intros c Hc; cls. Qed.
Lemma const_name_inv i s r : const_name i = POk s r -> i = s ++ r /\ ConstName s.
Proof. apply named_inv; intros c Hc; cls. Qed.
Lemma external_name_inv i s r : external_name i = POk s r -> i = s ++ r /\ RefName s.
Proof. apply named_inv; intros c Hc; cls. Qed.

Lemma digits_iff d v : Digits d v <-> Forall digit d /\ dec_value d = v.
Proof.
  split.
  - intros H. induction H as [|d v c H [IH1 IH2] Hc]; [split; [constructor|reflexivity]|].
    split; [apply Forall_app; split; [exact IH1|constructor; [exact Hc|constructor]]|].
    rewrite dec_value_app, IH2. cbn [fold_left]. lia.
  - revert v. induction d as [|c d IH] using rev_ind; intros v [Hd Hv]; [cbn in Hv; subst; constructor|].
    apply Forall_app in Hd as [Hd Hc]. inversion Hc; subst. rewrite dec_value_app. cbn [fold_left].
    rewrite N.mul_comm. constructor; [apply IH; split; [exact Hd|reflexivity]|assumption].
Qed.
Lemma digit_b s : forallb is_digit s = true -> Forall digit s.
Proof. intros H. apply Forall_forall. intros c Hc. rewrite forallb_forall in H. specialize (H c Hc). cls. Qed.
Lemma dec_uint_inv max i n r : dec_uint max i = POk n r -> exists d, i = d ++ r /\ Decimal d n /\ n <= max.
Proof.
  destruct i as [|c i]; cbn [dec_uint]; [discriminate|]. destruct ((49 <=? c) && (c <=? 57)) eqn:E.
  - destruct (span_split is_digit i) as (d & r' & -> & -> & Hd & _). destruct (_ <=? max) eqn:Em; [|discriminate]. intros H.
    assert (dec_value (c :: d) = n /\ r' = r) as [<- ->] by (split; congruence). exists (c :: d). split; [reflexivity|]. apply N.leb_le in Em. split; [|exact Em].
    apply andb_true_iff in E as [E1 E2]. apply N.leb_le in E1, E2. split; [apply digits_iff; split; [constructor; [unfold digit; lia|apply digit_b, Hd]|reflexivity]|].
    split; [discriminate|]. right. lia.
  - destruct (c =? 48) eqn:E0; [|discriminate]. apply N.eqb_eq in E0 as ->. intros H. assert (n = 0 /\ i = r) as [-> ->] by (split; congruence).
    exists (w "0"). split; [reflexivity|]. split; [|lia]. split; [apply (Digits_snoc [] 0 48); [constructor|unfold digit; lia]|]. split; [discriminate|]. left. reflexivity.
Qed.

(** * Lists *)
Section Lists.
Context {A : Type} (e : parser A) (E : str -> A -> Prop).
Hypothesis He : forall i a r, e i = POk a r -> exists s, i = s ++ r /\ E s a.
Lemma repeat_sound n : forall i l r, repeat_loop n e i = POk l r -> exists s, i = s ++ r /\ wmany E s l.
Proof.
  induction n as [|n IH]; intros i l r H; cbn [repeat_loop] in H; [discriminate|]. destruct (e i) as [a j| | | |] eqn:Ee; try discriminate.
  - destruct (length j =? length i)%nat; [discriminate|]. destruct (repeat_loop n e j) as [l' j'| | | |] eqn:El; try discriminate.
    assert (a :: l' = l /\ j' = r) as [<- ->] by (split; congruence). destruct (He _ _ _ Ee) as (s & -> & Hs).
    destruct (IH _ _ _ El) as (s' & -> & Hs'). exists (s ++ s'). rewrite <- app_assoc. split; [reflexivity|]. constructor; assumption.
  - assert ([] = l /\ i = r) as [<- ->] by (split; congruence). exists []. split; [reflexivity|constructor].
Qed.
Lemma repeat0_sound i l r : repeat0 e i = POk l r -> exists s, i = s ++ r /\ wmany E s l.
Proof. apply repeat_sound. Qed.

Lemma sep_sound n : forall i l r, separated_loop n e (ws comma) i = POk l r ->
  exists s, i = s ++ r /\ forall s0 a, E s0 a -> wseparated E (s0 ++ s) (a :: l).
Proof.
  induction n as [|n IH]; intros i l r H; cbn [separated_loop] in H; [discriminate|]. destruct ((ws comma ;; e) i) as [a j| | | |] eqn:Ee; try discriminate.
  - destruct (length j =? length i)%nat; [discriminate|]. destruct (separated_loop n e (ws comma) j) as [l' j'| | | |] eqn:El; try discriminate.
    assert (a :: l' = l /\ j' = r) as [<- ->] by (split; congruence). apply bind_inv in Ee as (u & k & Ec & Ee). apply ws_inv in Ec as (b & k' & -> & Hb & Ec). apply char_inv in Ec as ->.
    destruct (He _ _ _ Ee) as (s & -> & Hs). destruct (IH _ _ _ El) as (s' & -> & Hs').
    exists (b ++ w "," ++ s ++ s'). split; [rewrite <- !app_assoc; reflexivity|]. intros s0 a0 H0. apply ws_more; auto.
  - assert ([] = l /\ i = r) as [<- ->] by (split; congruence). exists []. split; [reflexivity|]. intros s0 a H0. rewrite app_nil_r. constructor. exact H0.
Qed.
Lemma separated1_sound i l r : separated1 e (ws comma) i = POk l r -> exists s, i = s ++ r /\ wseparated E s l.
Proof.
  intros H. apply bind_inv in H as (a & j & Ea & H). apply bind_inv in H as (l' & j' & El & H). apply ret_inv in H as [<- ->].
  destruct (He _ _ _ Ea) as (s & -> & Hs). destruct (sep_sound _ _ _ _ El) as (s' & -> & Hs').
  exists (s ++ s'). rewrite <- app_assoc. split; [reflexivity|]. auto.
Qed.

(** The elements read so far, each with its comma. *)
Inductive wpre : str -> list A -> Prop :=
| wp_nil : wpre [] []
| wp_snoc s l x a b : wpre s l -> E x a -> White b -> wpre (s ++ x ++ b ++ w ",") (l ++ [a]).
Lemma wpre_list s l : wpre s l -> forall t p x b, wlist E t (Punct p x b) -> wlist E (s ++ t) (Punct (l ++ p) x b).
Proof.
  induction 1 as [|s l y a b H IH Hy Hb]; intros t p x c Ht; [exact Ht|]. rewrite <- !app_assoc. cbn [app].
  apply (IH (y ++ b ++ w "," ++ t) (a :: p) x c). constructor; assumption.
Qed.
Notation f := (pdo a <- e; ws comma ;; pret a).
Notation g := (pdo a <- e; pdo t <- opt (ws comma); pret (a, match t with Some _ => true | None => false end)).
Lemma g_sound i a t r : g i = POk (a, t) r -> exists s, i = s ++ r /\ wlist E s (Punct [] a t).
Proof.
  intros H. apply bind_inv in H as (a' & j & Ea & H). apply bind_inv in H as (o & j' & Eo & H). apply ret_inv in H as [H ->].
  destruct (He _ _ _ Ea) as (s & -> & Hs). apply opt_inv in Eo as [(x & -> & Eo)|(-> & -> & _)]; assert (a' = a) as -> by congruence.
  - assert (t = true) as -> by congruence. apply ws_inv in Eo as (b & k & -> & Hb & Ec). apply char_inv in Ec as ->. exists (s ++ b ++ w ","). split; [rewrite <- !app_assoc; reflexivity|]. constructor; assumption.
  - assert (t = false) as -> by congruence. exists s. split; [reflexivity|]. constructor. exact Hs.
Qed.
Lemma punct_sound i0 n : forall acc prev i p r, 
  (exists s, i0 = s ++ i /\ wpre s acc) ->
  match prev with Some j => exists s l, i0 = s ++ j /\ wpre s l /\ l = removelast acc | None => True end ->
  punct_loop n f g acc prev i = POk p r -> exists s, i0 = s ++ r /\ wlist E s p.
Proof.
  induction n as [|n IH]; intros acc prev i p r (s & Ei & Hs) Hp H; cbn [punct_loop] in H; [discriminate|].
  destruct (f i) as [a j| | | |] eqn:Ef; try discriminate.
  - destruct (length j =? length i)%nat; [discriminate|]. apply (IH (acc ++ [a]) (Some i) j p r); [| |exact H].
    + apply bind_inv in Ef as (a' & k & Ea & Ef). apply bind_inv in Ef as (u & k' & Ec & Ef). apply ret_inv in Ef as [-> ->].
      apply ws_inv in Ec as (b & k'' & -> & Hb & Ec). apply char_inv in Ec as ->. destruct (He _ _ _ Ea) as (x & -> & Hx).
      exists (s ++ x ++ b ++ w ","). split; [rewrite Ei, <- !app_assoc; reflexivity|]. constructor; assumption.
    + exists s, acc. rewrite removelast_last. auto.
  - destruct (g i) as [[a t] j| | | |] eqn:Eg; try discriminate.
    + assert (Punct acc a t = p /\ j = r) as [<- ->] by (split; congruence). destruct (g_sound _ _ _ _ Eg) as (x & -> & Hx).
      exists (s ++ x). rewrite <- app_assoc. split; [exact Ei|]. rewrite <- (app_nil_r acc). apply (wpre_list _ _ Hs). exact Hx.
    + destruct prev as [j|]; [|discriminate]. destruct Hp as (s' & l & Ej & Hs' & ->). destruct (g j) as [[a t] j'| | | |] eqn:Eg'; try discriminate.
      assert (Punct (removelast acc) a t = p /\ j' = r) as [<- ->] by (split; congruence).
      destruct (g_sound _ _ _ _ Eg') as (x & -> & Hx).
      exists (s' ++ x). rewrite <- app_assoc. split; [exact Ej|]. rewrite <- (app_nil_r (removelast acc)). apply (wpre_list _ _ Hs'). exact Hx.
Qed.
Lemma punctuated_sound i p r : punctuated e i = POk p r -> exists s, i = s ++ r /\ wlist E s p.
Proof.
  intros H. refine (punct_sound i _ [] None i p r _ I H). exists []. split; [reflexivity|constructor].
Qed.
Lemma enclosed_sound o c i p r : surround o c (punctuated e) i = POk p r -> exists s, i = s ++ r /\ wenclosed E [o] [c] s p.
Proof.
  intros H. apply bind_inv in H as (u & j & Eo & H). apply char_inv in Eo as ->. apply cut_inv in H. apply bind_inv in H as (p' & k & Ep & H).
  apply bind_inv in H as (u' & k' & Ec & H). apply ret_inv in H as [-> ->]. apply ws_inv in Ec as (b & k0 & -> & Hb & Ec). apply char_inv in Ec as ->.
  destruct (punctuated_sound _ _ _ Ep) as (s & -> & Hs). exists ([o] ++ s ++ b ++ [c]). split; [rewrite <- !app_assoc; reflexivity|]. constructor; assumption.
Qed.
Lemma ws_sound i a r : ws e i = POk a r -> exists s, i = s ++ r /\ behind E s a.
Proof.
  intros H. apply ws_inv in H as (b & j & -> & Hb & H). destruct (He _ _ _ H) as (s & -> & Hs). exists (b ++ s). rewrite <- app_assoc. split; [reflexivity|]. constructor; assumption.
Qed.
Lemma opt_sound i a r : opt e i = POk a r -> exists s, i = s ++ r /\ wopt E s a.
Proof.
  intros H. apply opt_inv in H as [(x & -> & H)|(-> & -> & _)]; [|exists []; split; [reflexivity|constructor]].
  destruct (He _ _ _ H) as (s & -> & Hs). exists s. split; [reflexivity|]. constructor. exact Hs.
Qed.
Lemma surround_sound o c i a r : surround o c e i = POk a r -> exists s b, i = [o] ++ s ++ b ++ [c] ++ r /\ E s a /\ White b.
Proof.
  intros H. apply bind_inv in H as (u & j & Eo & H). apply char_inv in Eo as ->. apply cut_inv in H. apply bind_inv in H as (p' & k & Ep & H).
  apply bind_inv in H as (u' & k' & Ec & H). apply ret_inv in H as [-> ->]. apply ws_inv in Ec as (b & k0 & -> & Hb & Ec). apply char_inv in Ec as ->.
  destruct (He _ _ _ Ep) as (s & -> & Hs). exists s, b. auto.
Qed.
End Lists.
Lemma wlist_mono {A} (P Q : str -> A -> Prop) s p : (forall s a, P s a -> Q s a) -> wlist P s p -> wlist Q s p.
Proof. intros H. induction 1; constructor; auto. Qed.

(** * Types *)
Lemma basic_sound i t r : parse_basic i = POk t r -> exists p, t = PPrim p /\ i = prim_word p ++ r.
Proof.
  intros H. apply alt_inv in H as [H|H].
  - apply bind_inv in H as (k & j & Ek & H). apply take_inv in Ek as (-> & _). destruct (basic_keyword k) as [p|] eqn:E; [|discriminate]. apply ret_inv in H as [<- ->].
    exists p. split; [reflexivity|]. f_equal. unfold basic_keyword in E.
    repeat match type of E with (if ?c then _ else _) = _ => let E' := fresh in destruct c eqn:E'; [apply str_eqb_eq in E'; subst k; injection E as <-; reflexivity|] end. discriminate.
  - apply alt_inv in H as [H|H]; apply bind_inv in H as (u & j & Ek & H); apply tag_inv' in Ek as ->; apply ret_inv in H as [<- ->]; eexists; split; reflexivity.
Qed.
Lemma w_tx s : w s = tx s. Proof. reflexivity. Qed.

Section Types.
Variable p : parser pty.
Hypothesis Hp : forall i t r, p i = POk t r -> exists s, i = s ++ r /\ wtype s t.
Lemma single_sound (mk : pty -> pty) i t r : parse_single mk p i = POk t r -> exists s b t', i = w "<" ++ s ++ b ++ w ">" ++ r /\ wtype s t' /\ White b /\ t = mk t'.
Proof.
  intros H. apply cut_inv in H. apply map_inv in H as (t' & H & ->). destruct (surround_sound p wtype Hp _ _ _ _ _ H) as (s & b & -> & Hs & Hb). exists s, b, t'. auto.
Qed.
Lemma generic_sound i t r : parse_generic p i = POk t r -> exists s, i = s ++ r /\ wtype s t.
Proof.
  intros H. apply bind_inv in H as (k & j & Ek & H). apply take_inv in Ek as (-> & _).
  assert (Hs : forall mk word (C : forall s t b, wtype s t -> White b -> wtype (word ++ s ++ b ++ w ">") (mk t)), word = k ++ w "<" -> parse_single mk p j = POk t r -> exists s, k ++ j = s ++ r /\ wtype s t).
  { intros mk word C -> H'. destruct (single_sound mk _ _ _ H') as (s & b & t' & -> & Hs & Hb & ->). exists ((k ++ w "<") ++ s ++ b ++ w ">"). split; [rewrite <- !app_assoc; reflexivity|]. apply C; assumption. }
  repeat match type of H with (if ?c then _ else _) _ = _ => let E := fresh "E" in destruct c eqn:E; [apply str_eqb_eq in E|] end; [..|discriminate].
  - apply (Hs _ _ wt_vec); [subst k; reflexivity|exact H].
  - apply cut_inv in H. apply bind_inv in H as (u & j' & Eo & H). apply char_inv in Eo as ->. apply cut_inv in H. apply bind_inv in H as (t' & k2 & Ep & H).
    apply bind_inv in H as (u' & k' & Ec & H). apply ret_inv in H as [-> ->]. apply ws_inv in Ec as (b & k2' & -> & Hb & Ec). apply char_inv in Ec as ->.
    apply bind_inv in Ep as (tk & i1 & Etk & Ep). apply bind_inv in Ep as (u1 & i2 & Es1 & Ep). apply bind_inv in Ep as (u2 & i3 & Ec & Ep). apply bind_inv in Ep as (u3 & i4 & Es2 & Ep).
    apply bind_inv in Ep as (tv & i5 & Etv & Ep). apply ret_inv in Ep as [<- ->]. destruct (Hp _ _ _ Etk) as (s1 & -> & Hs1).
    apply space0_inv in Es1 as (b1 & -> & Hb1). apply char_inv in Ec as ->. apply space0_inv in Es2 as (b2 & -> & Hb2). destruct (Hp _ _ _ Etv) as (s2 & -> & Hs2).
    subst k. exists (w "hash_map<" ++ s1 ++ b1 ++ w "," ++ b2 ++ s2 ++ b ++ w ">"). split; [rewrite <- !app_assoc; reflexivity|]. constructor; assumption.
  - apply (Hs _ _ wt_hash_set); [subst k; reflexivity|exact H].
  - apply (Hs _ _ wt_option); [subst k; reflexivity|exact H].
  - apply (Hs _ _ wt_non_zero); [subst k; reflexivity|exact H].
Qed.
Lemma tuple_sound i t r : parse_tuple p i = POk t r -> exists s, i = s ++ r /\ wtype s t.
Proof.
  intros H. apply map_inv in H as (l & H & ->). destruct (enclosed_sound (ws p) (behind wtype) (ws_sound p wtype Hp) _ _ _ _ _ H) as (s & -> & Hs).
  exists s. split; [reflexivity|]. constructor. exact Hs.
Qed.
Lemma array_sound i t r : parse_array p i = POk t r -> exists s, i = s ++ r /\ wtype s t.
Proof.
  intros H. apply bind_inv in H as (u & j' & Eo & H). apply char_inv in Eo as ->. apply cut_inv in H. apply bind_inv in H as (t' & k2 & Ep & H).
  apply bind_inv in H as (u' & k' & Ec & H). apply ret_inv in H as [-> ->]. apply ws_inv in Ec as (b & k2' & -> & Hb & Ec). apply char_inv in Ec as ->.
  apply bind_inv in Ep as (ta & i1 & Eta & Ep). apply bind_inv in Ep as (u1 & i2 & Es1 & Ep). apply bind_inv in Ep as (n & i3 & Ec & Ep). apply ret_inv in Ep as [<- ->].
  apply ws_inv in Eta as (b1 & j & -> & Hb1 & Eta). destruct (Hp _ _ _ Eta) as (s & -> & Hs).
  apply ws_inv in Es1 as (b2 & j & -> & Hb2 & Es1). apply char_inv in Es1 as ->. apply ws_inv in Ec as (b3 & j & -> & Hb3 & Ec). apply dec_uint_inv in Ec as (d & -> & Hd & Hn).
  exists (w "[" ++ b1 ++ s ++ b2 ++ w ";" ++ b3 ++ d ++ b ++ w "]"). split; [rewrite <- !app_assoc; reflexivity|]. constructor; try assumption. lia.
Qed.
Lemma path_sound i l r : repeat0 (pdo s <- lower_name; tag (tx "::") ;; pret s) i = POk l r -> i = path_text l ++ r /\ Forall LowerName l.
Proof.
  intros H. apply (repeat0_sound _ (fun s n => s = n ++ w "::" /\ LowerName n)) in H as (s & -> & Hs); [|clear].
  - induction Hs as [|s a rest l [-> Ha] Hs [IH1 IH2]]; [split; [reflexivity|constructor]|]. unfold path_text in *. cbn [map concat]. rewrite <- !app_assoc in *. rewrite <- IH1. split; [reflexivity|]. constructor; assumption.
  - intros i a r H. apply bind_inv in H as (n & j & En & H). apply bind_inv in H as (u & k & Et & H). apply ret_inv in H as [<- ->]. apply lower_name_inv in En as [-> Hn]. apply tag_inv' in Et as ->.
    exists (n ++ w "::"). split; [rewrite <- app_assoc; reflexivity|]. auto.
Qed.
Lemma external_sound i t r : parse_external p i = POk t r -> match t with PExternal (x :: _) _ _ => ~ Shadowed x | _ => True end -> exists s, i = s ++ r /\ wtype s t.
Proof.
  intros H Hsh. apply bind_inv in H as (path & j & Epath & H). apply bind_inv in H as (name & k & En & H). apply bind_inv in H as (gs & k' & Eg & H). apply ret_inv in H as [<- ->].
  apply external_name_inv in En as [-> Hn].
  assert (Hpath : i = path_text (match path with Some l => l | None => [] end) ++ name ++ k /\ Forall LowerName (match path with Some l => l | None => [] end)).
  { apply opt_inv in Epath as [(l & -> & E)|(-> & -> & _)]; [|split; [reflexivity|constructor]]. apply bind_inv in E as (a & j & Ea & E). apply bind_inv in E as (l' & j' & El & E). apply ret_inv in E as [<- ->].
    apply bind_inv in Ea as (a' & j1 & Ea & Et). apply bind_inv in Et as (u & j2 & Et & Er). apply ret_inv in Er as [-> ->]. apply lower_name_inv in Ea as [-> Ha]. apply tag_inv' in Et as ->.
    apply path_sound in El as [-> Hl]. split; [unfold path_text; cbn [map concat]; rewrite <- !app_assoc; reflexivity|]. constructor; assumption. }
  destruct Hpath as [-> Hpath].
  destruct (opt_sound _ (wenclosed (behind wtype) (w "<") (w ">")) (fun i a r => enclosed_sound (ws p) (behind wtype) (ws_sound p wtype Hp) 60 62 i a r) _ _ _ Eg) as (s & -> & Hs).
  eexists. split; [|apply wt_reference; [exact Hpath| |exact Hn|exact Hs]]; [rewrite <- !app_assoc; reflexivity|]. destruct (match path with Some l => l | None => [] end); [exact I|exact Hsh].
Qed.
End Types.
Lemma alt_inv2 {A} (p q : parser A) i a r : alt p q i = POk a r -> p i = POk a r \/ (p i = PBack /\ q i = POk a r).
Proof. unfold alt. destruct (p i); try discriminate; auto. Qed.
Lemma type_sound n : forall i t r, parse_type n i = POk t r -> exists s, i = s ++ r /\ wtype s t.
Proof.
  induction n as [|n IH]; intros i t r H; [discriminate|]. cbn [parse_type] in H.
  apply alt_inv2 in H as [H|[Hb H]]; [apply basic_sound in H as (p & -> & ->); exists (prim_word p); split; [reflexivity|constructor]|].
  apply alt_inv2 in H as [H|[Hg H]]; [exact (generic_sound _ IH _ _ _ H)|].
  apply alt_inv in H as [H|H]; [exact (tuple_sound _ IH _ _ _ H)|].
  apply alt_inv in H as [H|H]; [exact (array_sound _ IH _ _ _ H)|].
  apply (external_sound _ IH _ _ _ H). destruct t; try exact I. destruct path as [|x path]; [exact I|]. intros Hsh.
  apply external_path in H as (Hx & i' & ->). destruct (shadowed_basic_or_generic (parse_type n) x i' Hx Hsh); contradiction.
Qed.
Lemma ptype_sound i t r : ptype i = POk t r -> exists s, i = s ++ r /\ wtype s t.
Proof. apply type_sound. Qed.

(** * Taking apart a successful run *)
Ltac inv1 :=
  match goal with
  | H : pbind _ _ _ = POk _ _ |- _ => let a := fresh "a" in let j := fresh "j" in let H' := fresh "H" in apply bind_inv in H as (a & j & H' & H); cbv beta in H
  | H : pret _ _ = POk _ _ |- _ => let E := fresh "E" in let E' := fresh "Er" in apply ret_inv in H as [E E']; subst
  | H : pmap _ _ _ = POk _ _ |- _ => let a := fresh "a" in let E := fresh "E" in apply map_inv in H as (a & H & E); subst
  | H : cut_err _ _ = POk _ _ |- _ => apply cut_inv in H
  | H : char _ _ = POk _ _ |- _ => apply char_inv in H; subst
  | H : comma _ = POk _ _ |- _ => apply char_inv in H; subst
  | H : tag _ _ = POk _ _ |- _ => apply tag_inv' in H; subst
  | H : space0 _ = POk _ _ |- _ => let b := fresh "b" in let E := fresh "E" in let Hb := fresh "Hb" in apply space0_inv in H as (b & E & Hb); subst
  | H : space1 _ = POk _ _ |- _ => let b := fresh "b" in let E := fresh "E" in let Hb := fresh "Hb" in let Hn := fresh "Hn" in apply space1_inv in H as (b & E & Hb & Hn); subst
  | H : ws _ _ = POk _ _ |- _ => let b := fresh "b" in let j := fresh "j" in let E := fresh "E" in let Hb := fresh "Hb" in apply ws_inv in H as (b & j & E & Hb & H); subst
  | H : type_name _ = POk _ _ |- _ => let E := fresh "E" in let Hn := fresh "Hn" in apply type_name_inv in H as [E Hn]; subst
  | H : const_name _ = POk _ _ |- _ => let E := fresh "E" in let Hn := fresh "Hn" in apply const_name_inv in H as [E Hn]; subst
  | H : lower_name _ = POk _ _ |- _ => let E := fresh "E" in let Hn := fresh "Hn" in apply lower_name_inv in H as [E Hn]; subst
  | H : ptype _ = POk _ _ |- _ => let s := fresh "s" in let E := fresh "E" in let Hs := fresh "Hs" in apply ptype_sound in H as (s & E & Hs); subst
  end.
Ltac inv := repeat inv1.
Ltac cut_text := rewrite <- ?app_assoc; reflexivity.

Lemma id_sound i n r : (space0 ;; parse_id) i = POk n r -> exists s, i = s ++ r /\ wid s n.
Proof.
  intros H. unfold parse_id in H. inv. apply dec_uint_inv in H as (d & -> & Hd & Hn).
  exists (b ++ w "@" ++ d). split; [cut_text|]. constructor; try assumption. lia.
Qed.
Lemma opt_id_sound i n r : opt (space0 ;; parse_id) i = POk n r -> exists s, i = s ++ r /\ wopt wid s n.
Proof. apply (opt_sound _ wid). exact id_sound. Qed.
Lemma line_sound i l r : comment_line i = POk l r -> exists s, i = s ++ r /\ wline s l.
Proof.
  intros H. unfold comment_line in H. apply bind_inv in H as (u & i1 & H1 & H). apply bind_inv in H as (u1 & i2 & H2 & H).
  apply bind_inv in H as (u2 & i3 & H3 & H). apply bind_inv in H as (l' & i4 & H4 & H). unfold space0 in H3. apply map_inv in H3 as (b2 & H3 & _). apply take_inv in H3 as (-> & Hb2 & _ & Hr). inv. unfold take_till in H4. apply take_inv in H4 as (-> & Hl & _ & _).
  exists (b ++ w "///" ++ b2 ++ l ++ [10]). split; [cut_text|]. constructor; [assumption|apply blank_b, Hb2|]. split.
  - intros Hin. rewrite forallb_forall in Hl. specialize (Hl _ Hin). discriminate.
  - destruct l as [|c l]; [exact I|]. cbn [app] in Hr. unfold is_space in Hr. apply orb_false_iff in Hr as [Hr1 Hr2]. apply N.eqb_neq in Hr1, Hr2. auto.
Qed.
Lemma comments_sound i c r : comments i = POk c r -> exists s, i = s ++ r /\ wcomment s c.
Proof. apply repeat0_sound. exact line_sound. Qed.

Ltac inv2 :=
  first [inv1
  | match goal with
    | H : comments _ = POk _ _ |- _ => let s := fresh "s" in let E := fresh "E" in let Hs := fresh "Hs" in apply comments_sound in H as (s & E & Hs); subst
    | H : opt (pbind space0 _) _ = POk _ _ |- _ => let s := fresh "s" in let E := fresh "E" in let Hs := fresh "Hs" in apply opt_id_sound in H as (s & E & Hs); subst
    end].

Lemma ufield_sound i f r : parse_unnamed_field i = POk f r -> exists s, i = s ++ r /\ wufield s f.
Proof.
  intros H. unfold parse_unnamed_field in H. repeat inv2. eexists. split; [|econstructor; eassumption]. cut_text.
Qed.
Lemma nfield_sound i f r : parse_named_field i = POk f r -> exists s, i = s ++ r /\ wnfield s f.
Proof.
  intros H. unfold parse_named_field in H. repeat inv2. exists (b2 ++ s0 ++ b1 ++ a1 ++ b0 ++ w ":" ++ b ++ s ++ s1). split; [cut_text|]. constructor; assumption.
Qed.
Lemma fields_sound i f r : parse_fields i = POk f r -> (exists s, i = s ++ r /\ wfields s f) /\ (f = FUnit -> i = r /\ exists c t, i = c :: t /\ c <> 123 /\ c <> 40) /\ i <> [].
Proof.
  intros H. unfold parse_fields in H. apply bind_inv in H as (c & j & H1 & H). apply peek_inv in H1 as (-> & t & ->).
  destruct (c =? 123) eqn:E1; [|destruct (c =? 40) eqn:E2].
  - inv. apply (enclosed_sound _ wnfield nfield_sound) in H as (s & E & Hs). rewrite E. split; [exists s; split; [reflexivity|constructor; exact Hs]|]. split; [discriminate|]. rewrite <- E. discriminate.
  - inv. apply (enclosed_sound _ wufield ufield_sound) in H as (s & E & Hs). rewrite E. split; [exists s; split; [reflexivity|constructor; exact Hs]|]. split; [discriminate|]. rewrite <- E. discriminate.
  - apply ret_inv in H as [<- <-]. split; [exists []; split; [reflexivity|constructor]|]. split; [|discriminate]. intros _. split; [reflexivity|]. exists c, t. apply N.eqb_neq in E1, E2. auto.
Qed.
Lemma variant_sound i v r : parse_variant i = POk v r -> exists s, i = s ++ r /\ wvariant s v.
Proof.
  intros H. unfold parse_variant in H. repeat inv2. apply fields_sound in H4 as [(sf & -> & Hf) _]. exists (b1 ++ s ++ b0 ++ a1 ++ b ++ sf ++ s0). split; [cut_text|]. constructor; assumption.
Qed.
Lemma generics_sound i g r : opt parse_generics i = POk g r -> exists s, i = s ++ r /\ wgenerics s g.
Proof.
  apply (opt_sound _ (wenclosed (behind wname) (w "<") (w ">"))). intros j a q H. apply (enclosed_sound (ws type_name) (behind wname)) in H; [exact H|].
  intros k n t Hn. apply (ws_sound type_name wname) in Hn; [exact Hn|]. clear. intros i a r H. apply type_name_inv in H as [-> H]. exists a. split; [reflexivity|]. constructor. exact H.
Qed.

Lemma blank_white b : Blank b -> White b.
Proof. intros H. eapply Forall_impl; [|exact H]. cbn beta. intuition. Qed.
Lemma white_app a b : White a -> White b -> White (a ++ b).
Proof. intros Ha Hb. apply Forall_app. auto. Qed.
Lemma blank_app a b : Blank a -> Blank b -> Blank (a ++ b).
Proof. intros Ha Hb. apply Forall_app. auto. Qed.
Lemma blank_cut b : forall x t q r, q ++ r = b ++ x :: t -> Blank b -> ~ Blank q -> exists t', q = b ++ x :: t'.
Proof.
  induction b as [|y b IH]; intros x t q r E Hb Hq; (destruct q as [|z q]; [destruct Hq; constructor|]); cbn in E.
  - assert (z = x) as -> by congruence. exists q. reflexivity.
  - assert (z = y /\ q ++ r = b ++ x :: t) as [-> E'] by (split; congruence). inversion Hb; subst.
    destruct (IH _ _ _ _ E' ltac:(assumption)) as (t' & ->); [|exists t'; reflexivity]. intros Hq'. apply Hq. constructor; assumption.
Qed.
Lemma unit_ends_cut g q r : unit_ends g (q ++ r) -> ~ Blank q -> unit_ends g q.
Proof. intros (b & x & t & E & Hb & Hx & Hg) Hq. destruct (blank_cut _ _ _ _ _ E Hb Hq) as (t' & ->). exists b, x, t'. auto. Qed.

Section Lit.
Context {F : Type} (parse_f64 : str -> option F).
Lemma sign_sound i o r : opt (one_of is_sign) i = POk o r -> i = sign_text o ++ r /\ wsign (sign_text o) (match o with Some c => c =? 45 | None => false end).
Proof.
  intros H. apply opt_inv in H as [(c & -> & H)|(-> & -> & _)]; [|split; [reflexivity|constructor]]. destruct i as [|x i]; cbn [one_of] in H; [discriminate|].
  destruct (is_sign x) eqn:E; [|discriminate]. assert (x = c /\ i = r) as [-> ->] by (split; congruence). split; [reflexivity|]. unfold is_sign in E. apply orb_true_iff in E as [E|E]; apply N.eqb_eq in E as ->; constructor.
Qed.
Lemma digits_sound i d r : take_while 1 is_digit i = POk d r -> i = d ++ r /\ Forall digit d /\ d <> [].
Proof. intros H. apply take_inv in H as (-> & Hd & Hl & _). split; [reflexivity|]. split; [apply digit_b, Hd|]. destruct d; [cbn in Hl; lia|discriminate]. Qed.
Lemma float_sound i f r : parse_float parse_f64 i = POk f r -> exists s, i = s ++ r /\ wlit parse_f64 s (LFloat f).
Proof.
  intros H. unfold parse_float in H. apply bind_inv in H as (o & i1 & Ho & H). apply sign_sound in Ho as [-> Ho]. apply bind_inv in H as (a & i2 & Ha & H). apply digits_sound in Ha as (-> & Ha & Ha').
  apply bind_inv in H as (u & i3 & Hc & H). apply char_inv in Hc as ->. apply bind_inv in H as (b & i4 & Hb & H). apply digits_sound in Hb as (-> & Hb & Hb').
  apply bind_inv in H as (e & i5 & He & H). destruct (parse_f64 _) as [f'|] eqn:Ef; [|discriminate]. apply ret_inv in H as [<- ->].
  set (te := match e with Some t => t | None => [] end) in *.
  assert (He' : i4 = te ++ r /\ wexponent te).
  { subst te. apply opt_inv in He as [(x & -> & He)|(-> & -> & _)]; [|split; [reflexivity|constructor]].
    apply bind_inv in He as (c & j & Hc & He). apply bind_inv in He as (o' & j' & Ho' & He). apply sign_sound in Ho' as [-> Ho']. apply bind_inv in He as (d & k & Hd & He). apply cut_inv, digits_sound in Hd as (-> & Hd & Hd').
    apply ret_inv in He as [<- ->]. destruct i4 as [|y i4]; cbn [one_of] in Hc; [discriminate|]. destruct ((y =? 101) || (y =? 69)) eqn:E; [|discriminate].
    assert (y = c /\ i4 = sign_text o' ++ d ++ r) as [-> ->] by (split; congruence). split; [cbn [app]; rewrite <- app_assoc; reflexivity|].
    apply (we_some [c] (sign_text o') (match o' with Some c => c =? 45 | None => false end) d); try assumption. apply orb_true_iff in E as [E|E]; apply N.eqb_eq in E as ->; auto. }
  destruct He' as [-> He']. exists (sign_text o ++ a ++ w "." ++ b ++ te). split; [cut_text|]. econstructor; eassumption.
Qed.
Lemma int_sound i z r : parse_int i = POk z r -> exists s, i = s ++ r /\ wlit parse_f64 s (LInt z).
Proof.
  intros H. unfold parse_int in H. apply bind_inv in H as (o & i1 & Ho & H). apply sign_sound in Ho as [-> Ho]. apply bind_inv in H as (d & i2 & Hd & H). apply digits_sound in Hd as (-> & Hd & Hd').
  destruct (int_value o d) as [v|] eqn:E; [|discriminate]. apply ret_inv in H as [<- ->]. exists (sign_text o ++ d). split; [cut_text|]. unfold int_value in E.
  set (v' := match o with Some c => if c =? 45 then (- Z.of_N (dec_value d))%Z else Z.of_N (dec_value d) | None => Z.of_N (dec_value d) end) in *.
  destruct ((- 2 ^ 127 <=? v')%Z && (v' <? 2 ^ 127)%Z) eqn:Er; [|discriminate]. assert (v' = v) as <- by congruence. apply andb_true_iff in Er as [E1 E2]. apply Z.leb_le in E1. apply Z.ltb_lt in E2.
  econstructor; [exact Ho|apply digits_iff; split; [exact Hd|reflexivity]|exact Hd'| |split; assumption]. subst v'. destruct o as [c|]; [destruct (c =? 45)|]; reflexivity.
Qed.
Lemma hex_sound h : forallb is_hex h = true -> Hex h (hex_value h).
Proof.
  induction h as [|c h IH] using rev_ind; intros H; [constructor|]. rewrite forallb_app in H. apply andb_true_iff in H as [H1 H2]. cbn [forallb] in H2. rewrite andb_true_r in H2.
  unfold hex_value. rewrite fold_left_app. cbn [fold_left]. rewrite N.mul_comm. constructor; [apply IH, H1|].
  unfold hexdigit, hex_digit, is_hex, is_digit, digit in *. destruct ((48 <=? c) && (c <=? 57)) eqn:E1; [left; split; [lia|reflexivity]|]. destruct ((97 <=? c) && (c <=? 102)) eqn:E2; [right; left; split; [lia|reflexivity]|]. right; right; split; [lia|reflexivity].
Qed.
Lemma span_max_len m f : forall i a r, span_max m f i = (a, r) -> (length a <= m)%nat.
Proof.
  induction m as [|m IH]; intros i a r H; [destruct i; injection H as <- <-; cbn; lia|]. destruct i as [|c i]; cbn in H; [injection H as <- <-; cbn; lia|].
  destruct (f c); [|injection H as <- <-; cbn; lia]. destruct (span_max m f i) as [a' r'] eqn:E. injection H as <- <-. cbn. apply IH in E. lia.
Qed.
Lemma take_between_inv m f i a r : take_between m f i = POk a r -> i = a ++ r /\ forallb f a = true /\ (1 <= length a <= m)%nat.
Proof.
  unfold take_between. destruct (span_max_split m f i) as (a' & r' & E & -> & Hf & _). pose proof (span_max_len _ _ _ _ _ E) as Hl. rewrite E. destruct a' as [|c a']; [discriminate|]. intros H.
  assert (c :: a' = a /\ r' = r) as [<- ->] by (split; congruence). cbn [length] in *. split; [reflexivity|]. split; [exact Hf|lia].
Qed.
Lemma escaped_sound i c r : parse_escaped_char i = POk c r -> exists e, i = w "\" ++ e ++ r /\ wescape e c.
Proof.
  intros H. unfold parse_escaped_char in H. apply bind_inv in H as (u & j & H1 & H). apply char_inv in H1 as ->. apply bind_inv in H as (x & j' & H1 & H). apply peek_inv in H1 as (-> & t & ->).
  assert (Hx : forall y z, wescape [y] z -> (char y ;; pret z) (x :: t) = POk c r -> exists e, w "\" ++ x :: t = w "\" ++ e ++ r /\ wescape e c).
  { intros y z Hy H1. apply bind_inv in H1 as (u1 & j & H1 & H2). apply char_inv in H1. apply ret_inv in H2 as [<- ->]. exists [y]. rewrite H1. split; [reflexivity|exact Hy]. }
  repeat match type of H with (if ?b then _ else _) _ = _ => destruct b; [try (revert H; apply Hx; constructor)|] end; [|discriminate].
  unfold parse_string_unicode in H. apply bind_inv in H as (h & k & H1 & H). destruct (is_scalar (hex_value h)) eqn:E; [|discriminate]. apply ret_inv in H as [<- ->].
  apply bind_inv in H1 as (u1 & k1 & H1 & H). apply char_inv in H1. apply cut_inv in H. apply bind_inv in H as (u2 & k2 & H2 & H). apply char_inv in H2 as ->. apply bind_inv in H as (h' & k3 & H2 & H). inv. apply take_between_inv in H2 as (-> & Hh & Hl). rewrite H1.
  exists (w "u{" ++ h ++ w "}"). split; [cut_text|]. constructor; [apply hex_sound, Hh|exact Hl|apply is_scalar_ok, E].
Qed.
(** A run of fragments writes the inside of a string literal, provided what follows a gap is not blank. *)
Lemma plain_chars s t v : forallb (fun c => negb ((c =? 34) || (c =? 92))) s = true -> wchars t v -> wchars (s ++ t) (s ++ v).
Proof.
  induction s as [|c s IH]; intros H Ht; [exact Ht|]. cbn [forallb] in H. apply andb_true_iff in H as [H1 H2]. apply negb_true_iff, orb_false_iff in H1 as [H1 H1']. apply N.eqb_neq in H1, H1'. constructor; auto.
Qed.
Lemma fragments_sound n : forall i l q, repeat_loop n parse_fragment i = POk l (34 :: q) -> exists s, i = s ++ 34 :: q /\ wchars s (concat l).
Proof.
  induction n as [|n IH]; intros i l q H; cbn [repeat_loop] in H; [discriminate|]. destruct (parse_fragment i) as [a j| | | |] eqn:Ee; try discriminate.
  2:{ assert ([] = l /\ i = 34 :: q) as [<- ->] by (split; congruence). exists []. split; [reflexivity|constructor]. }
  destruct (length j =? length i)%nat; [discriminate|]. destruct (repeat_loop n parse_fragment j) as [l' j'| | | |] eqn:El; try discriminate.
  assert (a :: l' = l /\ j' = 34 :: q) as [<- ->] by (split; congruence). destruct (IH _ _ _ El) as (s & -> & Hs). clear IH El H. cbn [concat].
  apply alt_inv in Ee as [H|H]; [|apply alt_inv in H as [H|H]].
  - unfold take_till in H. apply take_inv in H as (-> & Ha & _). exists (a ++ s). split; [cut_text|]. apply plain_chars; assumption.
  - inv. apply escaped_sound in H as (e & -> & He). exists (w "\" ++ e ++ s). split; [cut_text|]. cbn [app]. constructor; assumption.
  - apply bind_inv in H as (u & k & H1 & H). apply char_inv in H1 as ->. apply bind_inv in H as (u1 & k1 & H1 & H). apply ret_inv in H as [<- ->]. apply map_inv in H1 as (b & H1 & _). apply take_inv in H1 as (-> & Hb & Hl & Hr).
    exists (w "\" ++ b ++ s). split; [cut_text|]. constructor; [apply white_b, Hb|destruct b; [cbn in Hl; lia|discriminate]| |exact Hs].
    destruct s as [|c s]; [exact I|]. cbn [app] in Hr. intros Hw. inversion Hw; subst. unfold is_mspace in Hr. repeat match goal with H : _ || _ = false |- _ => apply orb_false_iff in H as [? ?] end. repeat match goal with H : (_ =? _) = false |- _ => apply N.eqb_neq in H end. intuition congruence.
Qed.
Lemma string_sound i s r : parse_string i = POk s r -> exists t, i = t ++ r /\ wlit parse_f64 t (LString s).
Proof.
  intros H. unfold parse_string in H. apply bind_inv in H as (u & j & H1 & H). apply char_inv in H1 as ->. apply cut_inv in H. apply bind_inv in H as (l & k & Hl & H). inv.
  apply fragments_sound in Hl as (t & -> & Ht). exists ([34] ++ t ++ [34]). split; [cut_text|]. constructor. exact Ht.
Qed.
Lemma sep_list {A} (E : str -> A -> Prop) s l : wseparated E s l -> exists l' x, l = l' ++ [x] /\ wlist E s (Punct l' x false) /\ forall b, White b -> wlist E (s ++ b ++ w ",") (Punct l' x true).
Proof.
  induction 1 as [s a Hs|s a b rest l Hs Hb H (l' & x & -> & IH1 & IH2)]; [exists [], a; split; [reflexivity|]; split; [constructor; exact Hs|]; intros b Hb; constructor; assumption|].
  exists (a :: l'), x. split; [reflexivity|]. split; [constructor; assumption|]. intros b' Hb'. rewrite <- !app_assoc. constructor; auto.
Qed.
Lemma byte_sound i n r : dec_uint 255 i = POk n r -> exists s, i = s ++ r /\ wbyte s n.
Proof. intros H. apply dec_uint_inv in H as (d & -> & Hd & Hn). exists d. split; [reflexivity|]. constructor; [exact Hd|lia]. Qed.
Lemma bytes_sound i l r : parse_bytes i = POk l r -> exists s, i = s ++ r /\ wlit parse_f64 s (LBytes l).
Proof.
  intros H. unfold parse_bytes in H. apply bind_inv in H as (u & j & H1 & H). apply char_inv in H1 as ->. apply cut_inv in H. apply bind_inv in H as (l' & k & Hl & H).
  apply (separated1_sound _ (behind wbyte) (ws_sound _ wbyte byte_sound)) in Hl as (s & -> & Hs). apply bind_inv in H as (o & k' & Ho & H). inv.
  destruct (sep_list _ _ _ Hs) as (l' & x & -> & Hs1 & Hs2). apply opt_inv in Ho as [(y & -> & Ho)|(-> & -> & _)].
  - inv. exists ([91] ++ (s ++ b0 ++ w ",") ++ b ++ [93]). split; [cut_text|]. apply wl_bytes with (t := true). constructor; auto.
  - exists ([91] ++ s ++ b ++ [93]). split; [cut_text|]. apply wl_bytes with (t := false). constructor; auto.
Qed.
Lemma literal_sound i l r : parse_literal parse_f64 i = POk l r -> exists s, i = s ++ r /\ wlit parse_f64 s l.
Proof.
  intros H. unfold parse_literal in H. apply bind_inv in H as (c & j & H1 & H). apply peek_inv in H1 as (-> & t & _).
  destruct (c =? 116); [inv; eexists; split; [reflexivity|constructor]|]. destruct (c =? 102); [inv; eexists; split; [reflexivity|constructor]|].
  destruct (is_sign c || is_digit c); [|destruct (c =? 34); [|destruct (c =? 91); [|discriminate]]].
  - inv. apply alt_inv in H as [H|H]; inv; [apply float_sound, H|apply int_sound, H].
  - inv. apply string_sound, H.
  - inv. apply bytes_sound, H.
Qed.

(** * Attributes *)
Lemma attr_list_sound pv i l r : (forall n i v r, LowerName n -> pv i = POk v r -> exists s, i = s ++ r /\ wattr parse_f64 (n ++ s) (Attr n v)) ->
  attr_list pv i = POk l r -> exists s comma, i = s ++ comma ++ r /\ wseparated (behind (wattr parse_f64)) s l /\ wcomma comma.
Proof.
  intros Hv H. unfold attr_list in H. apply bind_inv in H as (l' & j & H1 & H). apply bind_inv in H as (o & k & Ho & H). apply ret_inv in H as [<- ->].
  apply (separated1_sound _ (behind (wattr parse_f64))) in H1.
  - destruct H1 as (s & -> & Hs). apply opt_inv in Ho as [(y & -> & Ho)|(-> & -> & _)]; [inv; exists s, (w ","); split; [reflexivity|]; split; [exact Hs|constructor]|exists s, []; split; [reflexivity|]; split; [exact Hs|constructor]].
  - apply ws_sound. clear -Hv. intros i a r H. apply bind_inv in H as (n & j & Hn & H). apply lower_name_inv in Hn as [-> Hn]. apply bind_inv in H as (v & k & Hv' & H). apply ret_inv in H as [<- ->].
    destruct (Hv _ _ _ _ Hn Hv') as (s & -> & Hs). exists (n ++ s). split; [cut_text|exact Hs].
Qed.
Lemma value_sound m : forall n i v r, LowerName n -> parse_value parse_f64 m i = POk v r -> exists s, i = s ++ r /\ wattr parse_f64 (n ++ s) (Attr n v).
Proof.
  induction m as [|m IH]; intros n i v r Hn H; cbn [parse_value] in H; [discriminate|]. apply alt_inv in H as [H|H]; [|apply alt_inv in H as [H|H]].
  - apply bind_inv in H as (u & j & H1 & H). inv. apply (attr_list_sound _ _ _ _ IH) in H0 as (s & comma & -> & Hs & Hc).
    exists (w "(" ++ s ++ comma ++ b ++ w ")"). split; [cut_text|]. econstructor; eassumption.
  - apply map_inv in H as (l & H & ->). unfold parse_single_value in H. inv. apply literal_sound in H as (s & -> & Hs). exists (b0 ++ w "=" ++ b ++ s). split; [cut_text|]. constructor; assumption.
  - apply ret_inv in H as [<- ->]. exists []. split; [reflexivity|]. rewrite app_nil_r. constructor. exact Hn.
Qed.
Lemma attributes_sound i l r : attributes parse_f64 i = POk l r -> exists s, i = s ++ r /\ wattrs parse_f64 s l.
Proof.
  intros H. unfold attributes in H. apply map_inv in H as (ll & H & ->). apply (repeat0_sound _ (wattr_line parse_f64)) in H as (s & -> & Hs); [exists s; split; [reflexivity|constructor; exact Hs]|].
  clear. intros i l r H. unfold parse_attribute in H. inv. apply attr_list_sound in H as (s & comma & -> & Hs & Hc); [|intros n i' v r'; apply value_sound].
  eexists. split; [|constructor; eassumption]. cut_text.
Qed.

(** * Definitions *)
Lemma whead_prefix b s c (a : list (attr F)) : White b -> whead parse_f64 s c a -> whead parse_f64 (b ++ s) c a.
Proof. intros Hb [b1 sc c' b2 sa a' b3]. rewrite app_assoc. constructor; auto using white_app. Qed.
Lemma wdef_prefix b s (d : pdef F) after : White b -> wdef parse_f64 s d after -> wdef parse_f64 (b ++ s) d after.
Proof. intros Hb H. inversion H; subst; rewrite app_assoc; econstructor; eauto using whead_prefix. Qed.
Lemma wdef_after s (d : pdef F) q r : wdef parse_f64 s d (q ++ r) -> ~ Blank q -> wdef parse_f64 s d q.
Proof. intros H Hq. inversion H; subst; econstructor; eauto. eapply unit_ends_cut; eassumption. Qed.
Lemma wdefs_after s (ds : list (pdef F)) a : wdefs parse_f64 s ds a -> forall q r, a = q ++ r -> ~ Blank q -> wdefs parse_f64 s ds q.
Proof.
  revert s ds a. fix IH 4. intros s ds a H. destruct H as [after|s d rest ds after Hd Hs]; intros q r E Hq; subst; constructor.
  - rewrite app_assoc in Hd. eapply wdef_after; [exact Hd|]. intros Hb. apply Hq. apply Forall_app in Hb as [_ Hb]. exact Hb.
  - eapply IH; [exact Hs|reflexivity|exact Hq].
Qed.

Definition dsound (p : parser (pdef F)) : Prop := forall i d r, p i = POk d r -> exists s b, i = s ++ b ++ r /\ Blank b /\ wdef parse_f64 s d (b ++ r).
Lemma ws_dsound p : dsound p -> dsound (ws p).
Proof.
  intros Hp i d r H. apply ws_inv in H as (b0 & j & -> & Hb0 & H). destruct (Hp _ _ _ H) as (s & b & -> & Hb & Hs). exists (b0 ++ s), b. split; [cut_text|]. split; [exact Hb|]. apply wdef_prefix; assumption.
Qed.
Lemma defs_loop_sound p n : dsound p -> forall i ds r, repeat_loop n p i = POk ds r -> exists s b, i = s ++ b ++ r /\ Blank b /\ wdefs parse_f64 s ds (b ++ r).
Proof.
  intros Hp. induction n as [|n IH]; intros i l r H; cbn [repeat_loop] in H; [discriminate|]. destruct (p i) as [a j| | | |] eqn:Ee; try discriminate.
  - destruct (length j =? length i)%nat; [discriminate|]. destruct (repeat_loop n p j) as [l' j'| | | |] eqn:El; try discriminate.
    assert (a :: l' = l /\ j' = r) as [<- ->] by (split; congruence). destruct (Hp _ _ _ Ee) as (s & b & -> & Hb & Hs).
    destruct (IH _ _ _ El) as (s' & b' & -> & Hb' & Hs'). inversion Hs' as [after|s1 d rest ds after Hd Hrest]; subst.
    + exists s, (b ++ b'). split; [cut_text|]. split; [apply blank_app; assumption|]. rewrite <- (app_nil_r s). constructor; [|constructor]. rewrite <- app_assoc. exact Hs.
    + exists (s ++ (b ++ s1) ++ rest), b'. split; [cut_text|]. split; [exact Hb'|]. constructor; [rewrite <- !app_assoc in *; exact Hs|]. constructor; [|exact Hrest]. apply wdef_prefix; [apply blank_white, Hb|exact Hd].
  - assert ([] = l /\ i = r) as [<- ->] by (split; congruence). exists [], []. split; [reflexivity|]. split; [constructor|constructor].
Qed.

Ltac inv3 :=
  first [inv2
  | match goal with
    | H : opt parse_generics _ = POk _ _ |- _ => let s := fresh "sg" in let E := fresh "E" in let Hs := fresh "Hs" in apply generics_sound in H as (s & E & Hs); subst
    | H : parse_literal _ _ = POk _ _ |- _ => let s := fresh "sl" in let E := fresh "E" in let Hs := fresh "Hs" in apply literal_sound in H as (s & E & Hs); subst
    end].
Lemma import_path i l r : separated1 lower_name (tag (tx "::")) i = POk l r -> i = segments_text l ++ r /\ l <> [] /\ Forall LowerName l.
Proof.
  intros H. unfold separated1 in H. apply bind_inv in H as (a & j & Ha & H). apply lower_name_inv in Ha as [-> Ha]. apply bind_inv in H as (l' & k & Hl & H). apply ret_inv in H as [<- ->].
  assert (Hs : j = concat (map (fun s => w "::" ++ s) l') ++ r /\ Forall LowerName l').
  { clear Ha a. revert Hl. generalize (S (length j)). intros n. revert j l'. induction n as [|n IH]; intros j l' H; cbn [separated_loop] in H; [discriminate|].
    destruct ((tag (tx "::") ;; lower_name) j) as [x k| | | |] eqn:Ee; try discriminate.
    - destruct (length k =? length j)%nat; [discriminate|]. destruct (separated_loop n lower_name (tag (tx "::")) k) as [l2 j'| | | |] eqn:El; try discriminate.
      assert (x :: l2 = l' /\ j' = r) as [<- ->] by (split; congruence). destruct (IH _ _ El) as [-> Hl2]. inv. split; [cbn [map concat]; cut_text|]. constructor; assumption.
    - assert ([] = l' /\ j = r) as [<- ->] by (split; congruence). split; [reflexivity|constructor]. }
  destruct Hs as [-> Hl']. split; [cbn [segments_text]; cut_text|]. split; [discriminate|]. constructor; assumption.
Qed.
Lemma nonblank_char x : is_space x = false -> ~ Blank [x].
Proof. intros H Hb. inversion Hb as [|? ? Hx]; subst. destruct Hx as [-> | ->]; discriminate. Qed.
(** The keyword and what follows it, behind a head. *)
Definition body_sound (p : parser (pdef F)) : Prop := forall i d r, p i = POk d r ->
  exists s b, i = s ++ b ++ r /\ Blank b /\ forall sh c a, whead parse_f64 sh c a -> wdef parse_f64 (sh ++ s) (with_attributes a (with_comment c d)) (b ++ r).
Lemma struct_sound : body_sound parse_struct.
Proof.
  intros i d r H. unfold parse_struct in H. apply bind_inv in H as (u & i1 & H1 & H). apply tag_inv' in H1 as ->. apply bind_inv in H as (u1 & i2 & H1 & H). apply space1_inv in H1 as (k & -> & Hk & Hk').
  apply cut_inv in H. apply bind_inv in H as (n & i3 & Hn & H). apply ident_inv in Hn as En. destruct En as [En _]. subst i2.
  assert (Hnn : TypeName n /\ match i3 with c :: _ => is_alnum c = false | [] => True end).
  { split; [apply type_name_inv in Hn as [_ Hn]; exact Hn|]. unfold type_name, ident in Hn. apply bind_inv in Hn as (c & j & H1 & Hn). apply bind_inv in Hn as (t & j' & H2 & Hn). apply ret_inv in Hn as [_ ->]. apply take_inv in H2 as (_ & _ & _ & H2). exact H2. }
  destruct Hnn as [Hn' Hn'']. apply bind_inv in H as (g & i4 & Hg & H). apply generics_sound in Hg as (sg & -> & Hg).
  apply bind_inv in H as (u2 & i5 & Hb & H). apply map_inv in Hb as (b & Hb & _). apply take_inv in Hb as (-> & Hb & _ & Hi5). apply bind_inv in H as (fs & i6 & Hf & H). apply ret_inv in H as [<- ->].
  apply fields_sound in Hf as ((sf & -> & Hf) & Hu & Hne).
  assert (Hdec : fs = FUnit \/ fs <> FUnit) by (destruct fs; [right|right|left]; congruence). destruct Hdec as [-> | Hfs].
  - destruct (Hu eq_refl) as (E & x & t & E' & _). exists (w "struct" ++ k ++ n ++ sg), b. split; [rewrite <- !app_assoc, E; reflexivity|]. split; [apply blank_b, Hb|].
    intros sh c a Hh. cbn [with_comment with_attributes]. rewrite (app_assoc (w "struct")). apply wd_unit_struct; try assumption; [constructor; assumption|].
    rewrite E in E'. subst r. rewrite E in Hi5, Hn''. exists b, x, t. split; [reflexivity|]. split; [apply blank_b, Hb|]. split; [apply nonblank_char, Hi5|].
    intros -> ->. inversion Hg; subst. cbn [app] in Hn''. intros Hx. unfold is_alnum, is_lower, is_upper, is_digit, lower, upper, digit in *. lia.
  - exists ((w "struct" ++ k) ++ n ++ sg ++ b ++ sf), []. split; [rewrite <- !app_assoc; reflexivity|]. split; [constructor|]. intros sh c a Hh. cbn [with_comment with_attributes].
    apply wd_struct; try assumption; [constructor; assumption|apply blank_b, Hb].
Qed.
Lemma enum_sound : body_sound parse_enum.
Proof.
  intros i d r H. unfold parse_enum in H. repeat inv3. apply (enclosed_sound _ wvariant variant_sound) in H5 as (sv & -> & Hv).
  exists ((w "enum" ++ b0) ++ a1 ++ sg ++ b ++ sv), []. split; [cut_text|]. split; [constructor|]. intros sh c a' Hh. apply wd_enum; try assumption. constructor; assumption.
Qed.
Lemma alias_sound : body_sound parse_alias.
Proof.
  intros i d r H. unfold parse_alias in H. repeat inv3. exists ((w "type" ++ b2) ++ a1 ++ sg ++ b1 ++ w "=" ++ b0 ++ s ++ b ++ w ";"), []. split; [cut_text|]. split; [constructor|]. intros sh c a' Hh. apply wd_alias with (a := a'); try assumption. constructor; assumption.
Qed.
Lemma const_sound : body_sound (parse_const parse_f64).
Proof.
  intros i d r H. unfold parse_const in H. repeat inv3. idtac.
  exists ((w "const" ++ b2) ++ a1 ++ w ":" ++ b1 ++ s ++ b0 ++ w "=" ++ b ++ sl ++ w ";"), []. split; [cut_text|]. split; [constructor|]. intros sh c a' Hh. apply wd_const with (a := a'); try assumption. constructor; assumption.
Qed.
Lemma import_sound : body_sound parse_import.
Proof.
  intros i d r H. unfold parse_import in H. repeat inv1. apply import_path in H2 as (-> & Hl & Hl'). 
  exists ((w "use" ++ b) ++ segments_text a1 ++ (match a2 with Some n => w "::" ++ n | None => [] end) ++ w ";"), []. 
  assert (He : j1 = match a2 with Some n => w "::" ++ n | None => [] end ++ w ";" ++ r /\ match a2 with Some n => TypeName n | None => True end).
  { apply opt_inv in H3 as [(n & -> & H)|(-> & -> & _)]; [|split; [reflexivity|exact I]]. inv. apply alt_inv in H as [H|H]; inv; (split; [cut_text|assumption]). }
  destruct He as [-> He]. split; [cut_text|]. split; [constructor|]. intros sh c a' Hh. cbn [with_comment with_attributes]. eapply wd_import; [exact Hh|constructor; assumption|assumption|assumption|].
  destruct a2 as [n|]; [right; exists n; auto|left; auto].
Qed.
Lemma module_sound p : dsound p -> body_sound (parse_module p).
Proof.
  intros Hp i d r H. unfold parse_module in H. apply bind_inv in H as (u & i1 & H1 & H). apply tag_inv' in H1 as ->. apply bind_inv in H as (u1 & i2 & H1 & H). apply space1_inv in H1 as (k & -> & Hk & Hk').
  apply cut_inv in H. apply bind_inv in H as (n & i3 & Hn & H). apply lower_name_inv in Hn as [-> Hn]. apply bind_inv in H as (u2 & i4 & Hb & H). apply space0_inv in Hb as (b & -> & Hb).
  apply bind_inv in H as (l & i5 & Hl & H). apply ret_inv in H as [<- ->]. unfold surround in Hl. apply bind_inv in Hl as (u3 & i6 & Ho & Hl). apply char_inv in Ho as ->. apply cut_inv in Hl.
  apply bind_inv in Hl as (l' & i7 & Hl & H). apply bind_inv in H as (u4 & i8 & Hc & H). apply ret_inv in H as [-> ->]. apply ws_inv in Hc as (b' & i9 & -> & Hb' & Hc). apply char_inv in Hc as ->.
  unfold repeat0 in Hl. apply (defs_loop_sound _ _ (ws_dsound _ Hp)) in Hl as (sd & b2 & -> & Hb2 & Hd).
  exists ((w "mod" ++ k) ++ n ++ b ++ w "{" ++ sd ++ (b2 ++ b') ++ w "}"), []. split; [cut_text|]. split; [constructor|]. intros sh c a Hh. cbn [with_comment with_attributes].
  apply wd_module with (a := a); try assumption; [constructor; assumption| |apply white_app; [apply blank_white, Hb2|exact Hb']].
  eapply wdefs_after; [exact Hd|rewrite <- app_assoc; instantiate (1 := r); cut_text|]. intros Hx. apply Forall_app in Hx as [_ Hx]. inversion Hx as [|? ? Hy]; subst. destruct Hy; discriminate.
Qed.
Lemma definition_sound n : dsound (parse_definition parse_f64 n).
Proof.
  induction n as [|n IH]; intros i d r H; cbn [parse_definition] in H; [discriminate|]. apply bind_inv in H as (c & i1 & Hc & H). apply ws_inv in Hc as (b1 & j1 & -> & Hb1 & Hc). apply comments_sound in Hc as (sc & -> & Hc).
  apply bind_inv in H as (a & i2 & Ha & H). apply ws_inv in Ha as (b2 & j2 & -> & Hb2 & Ha). apply attributes_sound in Ha as (sa & -> & Ha). apply bind_inv in H as (u & i3 & Hb & H). apply space0_inv in Hb as (b3 & -> & Hb3).
  apply bind_inv in H as (d' & i4 & Hd & H). apply ret_inv in H as [<- ->]. apply bind_inv in Hd as (k & j & Hk & Hd). apply peek_inv in Hk as (-> & _).
  assert (Hbody : forall p, body_sound p -> p i3 = POk d' r -> exists s b, b1 ++ sc ++ b2 ++ sa ++ b3 ++ i3 = s ++ b ++ r /\ Blank b /\ wdef parse_f64 s (with_attributes a (with_comment c d')) (b ++ r)).
  { intros p Hp H. destruct (Hp _ _ _ H) as (s & b & -> & Hb & Hs). exists ((b1 ++ sc ++ b2 ++ sa ++ b3) ++ s), b. split; [cut_text|]. split; [exact Hb|]. apply Hs. constructor; assumption. }
  repeat match type of Hd with (if ?b then _ else _) _ = _ => destruct b end; [..|discriminate]; revert Hd; apply Hbody.
  - apply module_sound, IH.
  - apply struct_sound.
  - apply enum_sound.
  - apply const_sound.
  - apply alias_sound.
  - apply import_sound.
Qed.
Lemma defs_sound i ds r : repeat0 (pdefinition parse_f64) i = POk ds r -> exists s b, i = s ++ b ++ r /\ Blank b /\ wdefs parse_f64 s ds (b ++ r).
Proof. apply defs_loop_sound. intros j d q H. exact (definition_sound _ _ _ _ H). Qed.
Lemma opening_sound i c r : (pdo c <- ws comments; char 10 ;; pret c) i = POk c r -> exists so, i = so ++ r /\ wopening so c.
Proof.
  intros H. apply bind_inv in H as (c' & i1 & Hc & H). apply bind_inv in H as (u0 & i2 & H1 & H). apply char_inv in H1 as ->. apply ret_inv in H as [-> ->]. apply bind_inv in Hc as (u & j & Hb & Hc). apply mspace_inv in Hb as (b & -> & Hb & Hj). apply comments_sound in Hc as (sc & -> & Hc).
  exists (b ++ sc ++ [10]). split; [cut_text|]. constructor; [assumption|assumption|]. intros ->. inversion Hc; subst. discriminate.
Qed.
End Lit.
