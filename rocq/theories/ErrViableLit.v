(** Continuation of ErrViable.v: literals and attributes. *)
From Verif Require Import Base Syntax Parser ParserSpec ParserTotal Grammar GrammarSound GrammarComplete Lsp SpanParser SpanProofs ErrParser ErrProofs ErrViable.
Require Import ZifyN ZifyBool.
Require Coq.Strings.String.
Import Coq.Strings.String.StringSyntax.
Local Open Scope N_scope.
Ltac here := repeat apply viable_pre; apply viable_here.

Lemma everify_err {A B} total ly (f : A -> option B) (p : eparser A) i c e r : everify total ly f p i = EErr c e r -> p i = EErr c e r \/ (r = i /\ c = false /\ exists a j, p i = EOk a j /\ f a = None).
Proof.
  unfold everify. destruct (p i) as [a j|c' e' j| |]; intros H; try discriminate; [|left; congruence]. destruct (f a) eqn:E; [discriminate|]. right. split; [congruence|]. split; [congruence|]. eauto.
Qed.
Definition nf : str -> option unit := fun _ => None.
Definition take_between_inv := GrammarSound.take_between_inv nf.
Definition hex_sound := GrammarSound.hex_sound nf.
Definition digits_sound := GrammarSound.digits_sound nf.
Definition escaped_sound := GrammarSound.escaped_sound nf.
Definition nwhead (s : str) : Prop := match s with c :: _ => ~ White [c] | [] => True end.
Lemma nwhead_b s : match s with c :: _ => is_mspace c = false | [] => True end -> nwhead s.
Proof.
  destruct s as [|c s]; [exact id|]. cbn. intros H Hw. inversion Hw; subst. unfold is_mspace in H. repeat match goal with H : _ || _ = false |- _ => apply orb_false_iff in H as [? ?] end. repeat match goal with H : (_ =? _) = false |- _ => apply N.eqb_neq in H end. intuition congruence.
Qed.
(** Fragments of a string literal, whatever follows them. *)
Lemma fragment_more i a j : parse_fragment i = POk a j -> exists x, i = x ++ j /\ forall t v, wchars t v -> (nwhead j -> nwhead t) -> wchars (x ++ t) (a ++ v).
Proof.
  intros H. apply alt_inv in H as [H|H]; [|apply alt_inv in H as [H|H]].
  - unfold take_till in H. apply take_inv in H as (-> & Ha & _). exists a. split; [reflexivity|]. intros t v Ht _. apply plain_chars; assumption.
  - apply map_inv in H as (c & H & ->). apply escaped_sound in H as (e & -> & He). exists (w "\" ++ e). split; [rewrite <- app_assoc; reflexivity|]. intros t v Ht _. rewrite <- app_assoc. cbn [app]. constructor; assumption.
  - apply bind_inv in H as (u & k & H1 & H). apply char_inv in H1 as ->. apply bind_inv in H as (u1 & k1 & H1 & H). apply ret_inv in H as [<- ->]. apply map_inv in H1 as (b & H1 & _). apply take_inv in H1 as (-> & Hb & Hl & Hr).
    exists (w "\" ++ b). split; [reflexivity|]. intros t v Ht Hn. rewrite <- app_assoc. constructor; [apply white_b, Hb|destruct b; [cbn in Hl; lia|discriminate]| |exact Ht]. exact (Hn (nwhead_b _ Hr)).
Qed.
Lemma more_more x i j a b : (forall t v, wchars t v -> (nwhead (i ++ j) -> nwhead t) -> wchars (x ++ t) (a ++ v)) -> (forall t v, wchars t v -> (nwhead j -> nwhead t) -> wchars (i ++ t) (b ++ v)) ->
  forall t v, wchars t v -> (nwhead j -> nwhead t) -> wchars ((x ++ i) ++ t) ((a ++ b) ++ v).
Proof. intros H1 H2 t v Ht Hn. rewrite <- !app_assoc. apply H1; [apply H2; assumption|]. destruct i as [|c i]; [exact Hn|exact id]. Qed.
Section Total.
Variable total : N.
Lemma efragment_ok i a j : eparse_fragment total i = EOk a j -> parse_fragment i = POk a j.
Proof. intros H. exact (okp _ _ _ _ _ _ _ (f_fragment total) H). Qed.
Lemma fragments_ok n : forall i l r, erepeat_loop n (eparse_fragment total) i = EOk l r -> exists x, i = x ++ r /\ forall t v, wchars t v -> (nwhead r -> nwhead t) -> wchars (x ++ t) (concat l ++ v).
Proof.
  induction n as [|n IH]; intros i l r H; cbn [erepeat_loop] in H; [discriminate|]. destruct (eparse_fragment total i) as [a j|[] e j| |] eqn:Ef; try discriminate.
  - destruct (length j =? length i)%nat; [discriminate|]. destruct (erepeat_loop n _ j) as [l' r'|c' e' r'| |] eqn:El; try discriminate. assert (a :: l' = l /\ r' = r) as [<- ->] by (split; congruence).
    apply efragment_ok, fragment_more in Ef as (x & -> & Hx). apply IH in El as (y & -> & Hy). exists (x ++ y). split; [apply app_assoc|]. cbn [concat]. exact (more_more _ _ _ _ _ Hx Hy).
  - assert ([] = l /\ i = r) as [<- ->] by (split; congruence). exists []. split; [reflexivity|]. intros t v Ht _. exact Ht.
Qed.
Lemma fragments_err n : forall i c e r, erepeat_loop n (eparse_fragment total) i = EErr c e r ->
  exists x a j, i = x ++ j /\ eparse_fragment total j = EErr true e r /\ forall t v, wchars t v -> (nwhead j -> nwhead t) -> wchars (x ++ t) (a ++ v).
Proof.
  induction n as [|n IH]; intros i c e r H; cbn [erepeat_loop] in H; [discriminate|]. destruct (eparse_fragment total i) as [a j|[] e' j| |] eqn:Ef; try discriminate.
  - destruct (length j =? length i)%nat; [discriminate|]. destruct (erepeat_loop n _ j) as [l' r'|c' e' r'| |] eqn:El; try discriminate. assert (e' = e /\ r' = r) as [-> ->] by (split; congruence).
    apply efragment_ok, fragment_more in Ef as (x & -> & Hx). apply IH in El as (y & b & k & -> & Hk & Hy). exists (x ++ y), (a ++ b), k. split; [apply app_assoc|]. split; [exact Hk|]. exact (more_more _ _ _ _ _ Hx Hy).
  - exists [], [], i. split; [reflexivity|]. split; [congruence|]. intros t v Ht _. exact Ht.
Qed.
Lemma esc_nocut c v i e r : esc total c v i <> EErr true e r.
Proof. intros H. apply ebind_err in H as [H|(u & j & _ & H)]; [exact (prim_nocut _ _ _ _ _ _ (nc_char _) H)|discriminate]. Qed.
Lemma wchars_escape e c : wescape e c -> wchars (w "\" ++ e) [c].
Proof. intros H. eapply retext; [apply (wc_escape e c [] [] H); constructor|rewrite app_nil_r; reflexivity]. Qed.
Lemma hex0 h v : Hex h v -> Hex (h ++ [48]) (16 * v).
Proof. intros H. replace (16 * v) with (16 * v + 0) by lia. constructor; [exact H|]. left. unfold digit. split; lia. Qed.
(** The escape of a character's number, from the backslash on. *)
Definition wescaped (s : str) (v : str) : Prop := wchars s v /\ exists t, s = 92 :: t.
Lemma hex_lt h v : Hex h v -> v < 16 ^ N.of_nat (length h).
Proof.
  induction 1 as [|h v c x Hh IH Hx]; [cbn; lia|]. rewrite app_length, Nat.add_1_r, Nat2N.inj_succ, N.pow_succ_r'. assert (x < 16); [|nia]. unfold hexdigit, digit in Hx. lia.
Qed.
(** Of at most five digits, some number of a character can be made: a digit 0 or the closing brace. *)
Lemma hex_more h v : Hex h v -> (1 <= length h <= 5)%nat -> exists t u, text t /\ Hex (h ++ t) u /\ (length t <= 1)%nat /\ scalar u.
Proof.
  intros Hh Hl. destruct (is_scalar v) eqn:E; [exists [], v; rewrite app_nil_r; split; [constructor|]; split; [exact Hh|]; split; [cbn; lia|apply is_scalar_ok, E]|].
  exists [48], (16 * v). split; [texts|]. split; [apply hex0, Hh|]. split; [cbn; lia|]. unfold is_scalar in E. pose proof (hex_lt _ _ Hh). assert (16 ^ N.of_nat (length h) <= 16 ^ 5) by (apply N.pow_le_mono_r; lia). unfold scalar.
  change (16 ^ 5) with 1048576 in *. lia.
Qed.
Lemma hexA : Hex (w "41") 65.
Proof. apply (Hex_snoc [52] 4 49 1); [|left; unfold digit; split; [lia|reflexivity]]. apply (Hex_snoc [] 0 52 4); [constructor|left; unfold digit; split; [lia|reflexivity]]. Qed.
Lemma c_escaped i e r : eparse_escaped_char total i = EErr true e r -> viable wescaped i r.
Proof.
  intros H. apply ebind_err in H as [H|(u & j & Hu & H)]; [destruct (prim_nocut _ _ _ _ _ _ (nc_char _) H)|]. apply prim_ok, char_inv in Hu as ->.
  apply ebind_err in H as [H|(x & j1 & Hu & H)]; [apply prim_err in H as [_ [[_ H]|[H _]]]; [discriminate|]; destruct j; discriminate|]. apply prim_ok, peek_inv in Hu as (-> & t & _).
  repeat match type of H with (if ?b then _ else _) _ = _ => destruct b; [try (destruct (esc_nocut _ _ _ _ _ H))|] end; [|discriminate].
  assert (Hw : forall h v, Hex h v -> (1 <= length h <= 6)%nat -> scalar v -> wescaped ([92] ++ [117] ++ [123] ++ h ++ w "}") [v]).
  { intros h v H1 H2 H3. split; [|eexists; reflexivity]. exact (wchars_escape _ _ (wx_unicode h v H1 H2 H3)). }
  assert (HA : wescaped (w "\u{41}") [65]). { apply (Hw (w "41") 65 hexA); [cbn; lia|unfold scalar; lia]. }
  apply everify_err in H as [H|(_ & H & _)]; [|discriminate]. apply ebind_err in H as [H|(u1 & k & Hu & H)]; [destruct (prim_nocut _ _ _ _ _ _ (nc_char _) H)|]. apply prim_ok, char_inv in Hu as ->.
  apply ecut_err in H as [c H]. apply ebind_err in H as [H|(u2 & k1 & Hu & H)]; [apply prim_err in H as [-> _]; here; exists (w "{41}"), [65]; split; [texts|exact HA]|]. apply prim_ok, char_inv in Hu as ->.
  apply ebind_err in H as [H|(h & k2 & Hh & H)]; [apply prim_err in H as [-> _]; here; exists (w "41}"), [65]; split; [texts|exact HA]|]. apply prim_ok, take_between_inv in Hh as (-> & Hh & Hl).
  apply ebind_err in H as [H|(u3 & k3 & _ & H)]; [|discriminate]. apply prim_err in H as [-> _].
  apply hex_sound in Hh. destruct (is_scalar (hex_value h)) eqn:Es.
  - here. exists (w "}"), [hex_value h]. split; [texts|]. apply Hw; [exact Hh|exact Hl|apply is_scalar_ok, Es].
  - destruct (Nat.eq_dec (length h) 6) as [E6|E6].
    + exists ([92] ++ [117] ++ [123] ++ h). split; [rewrite <- !app_assoc; reflexivity|]. left. exists [], h, (hex_value h). repeat split; [exact E6|exact Hh|]. intros Hs. apply is_scalar_ok in Hs. congruence.
    + here. destruct (hex_more _ _ Hh ltac:(lia)) as (t' & u' & Ht' & Hh' & Hl' & Hs'). exists (t' ++ w "}"), [u']. split; [apply Forall_app; split; [exact Ht'|texts]|].
      eapply retext; [apply (Hw (h ++ t') u' Hh'); [rewrite app_length; lia|exact Hs']|rewrite <- !app_assoc; reflexivity].
Qed.
Lemma c_fragment i e r : eparse_fragment total i = EErr true e r -> viable wescaped i r.
Proof.
  intros H. apply ealt_err in H as [[_ H]|[_ H]]; [destruct (prim_nocut _ _ _ _ _ _ (take_till_nocut _ _) H)|]. apply ealt_err in H as [[_ H]|[_ H]]; [apply emap_err in H; exact (c_escaped _ _ _ H)|].
  apply ebind_err in H as [H|(u & j & _ & H)]; [destruct (prim_nocut _ _ _ _ _ _ (nc_char _) H)|]. apply ebind_err in H as [H|(u1 & j1 & _ & H)]; [|discriminate].
  apply prim_err in H as [_ [[_ H]|[H _]]]; [discriminate|]. exfalso. revert H. apply nc_bind; [apply nc_take|intros a; apply nc_ret].
Qed.
Section Lit.
Context {F : Type} (parse_f64 : str -> option F).
(** Every text that looks like a floating point number has a value (std's [f64::from_str]). *)
Hypothesis Hf64 : forall s neg a b e, wsign s neg -> Forall digit a -> a <> [] -> Forall digit b -> b <> [] -> wexponent e -> parse_f64 (s ++ a ++ w "." ++ b ++ e) <> None.
Notation wlit := (wlit parse_f64).
Lemma lit_int s neg : wsign s neg -> exists v, wlit (s ++ w "1") v.
Proof.
  intros Hs. exists (LInt (if neg then -1 else 1)%Z). apply (wl_int _ s neg (w "1") 1); [exact Hs|exact (proj1 dec1)|discriminate|destruct neg; reflexivity|destruct neg; lia].
Qed.
Lemma lit_one : exists t v, text t /\ wlit t v.
Proof. destruct (lit_int [] false wsign_none) as [v Hv]. exists (w "1"), v. split; [texts|exact Hv]. Qed.
Lemma esign_never i c e r : eopt (prim total LyLiteral (one_of is_sign)) i <> EErr c e r.
Proof. intros H. apply eopt_err in H as [_ H]. apply prim_err in H as [_ [[_ H]|[H _]]]; [discriminate|]. unfold one_of in H. destruct i as [|x i]; [discriminate|]. destruct (is_sign x); discriminate. Qed.
Lemma esign_ok i o r : eopt (prim total LyLiteral (one_of is_sign)) i = EOk o r -> i = sign_text o ++ r /\ wsign (sign_text o) (match o with Some c => c =? 45 | None => false end).
Proof.
  unfold eopt, prim. destruct i as [|x i]; cbn [one_of].
  - intros H. assert (None = o /\ [] = r) as [<- <-] by (split; congruence). split; [reflexivity|constructor].
  - destruct (is_sign x) eqn:E; intros H.
    + assert (Some x = o /\ i = r) as [<- ->] by (split; congruence). split; [reflexivity|]. cbn [sign_text]. unfold is_sign in E. apply orb_true_iff in E as [E|E]; apply N.eqb_eq in E as ->; constructor.
    + assert (None = o /\ x :: i = r) as [<- <-] by (split; congruence). split; [reflexivity|constructor].
Qed.
Lemma edigits_ok i d r : prim total LyLiteral (take_while 1 is_digit) i = EOk d r -> i = d ++ r /\ Forall digit d /\ d <> [].
Proof. intros H. apply prim_ok in H. exact (digits_sound _ _ _ H). Qed.
Lemma c_float i e r : eparse_float total parse_f64 i = EErr true e r -> viable wlit i r.
Proof.
  intros H. apply everify_err in H as [H|(_ & H & _)]; [|discriminate]. apply ebind_err in H as [H|(o & j & Ho & H)]; [destruct (esign_never _ _ _ _ H)|]. apply esign_ok in Ho as [-> Ho].
  apply ebind_err in H as [H|(a & j1 & Ha & H)]; [destruct (prim_nocut _ _ _ _ _ _ (nc_take _ _) H)|]. apply edigits_ok in Ha as (-> & Ha & Ha').
  apply ebind_err in H as [H|(u & j2 & Hu & H)]; [destruct (prim_nocut _ _ _ _ _ _ (nc_char _) H)|]. apply prim_ok, char_inv in Hu as ->.
  apply ebind_err in H as [H|(b & j3 & Hb & H)]; [destruct (prim_nocut _ _ _ _ _ _ (nc_take _ _) H)|]. apply edigits_ok in Hb as (-> & Hb & Hb').
  apply ebind_err in H as [H|(x & j4 & _ & H)]; [|discriminate]. apply eopt_err in H as [_ H].
  apply ebind_err in H as [H|(k & j4 & Hk & H)]; [apply prim_err in H as [_ [[_ H]|[H _]]]; [discriminate|]; unfold one_of in H; destruct j3 as [|y j3]; [discriminate|]; destruct ((y =? 101) || (y =? 69)); discriminate|].
  assert (Hk' : j3 = [k] ++ j4 /\ ([k] = w "e" \/ [k] = w "E")).
  { apply prim_ok in Hk. destruct j3 as [|y j3]; cbn [one_of] in Hk; [discriminate|]. destruct ((y =? 101) || (y =? 69)) eqn:E; [|discriminate]. assert (y = k /\ j3 = j4) as [-> ->] by (split; congruence). split; [reflexivity|].
    apply orb_true_iff in E as [E|E]; apply N.eqb_eq in E as ->; auto. }
  destruct Hk' as [-> Hk']. apply ebind_err in H as [H|(o' & j5 & Ho' & H)]; [destruct (esign_never _ _ _ _ H)|]. apply esign_ok in Ho' as [-> Ho'].
  apply ebind_err in H as [H|(d & j6 & _ & H)]; [|discriminate]. apply ecut_err in H as [c' H]. apply prim_err in H as [-> _]. here.
  assert (He : wexponent ([k] ++ sign_text o' ++ w "0")). { econstructor; [exact Hk'|exact Ho'| |discriminate]. change (w "0") with [48]; constructor; [unfold digit; lia|constructor]. }
  destruct (parse_f64 (sign_text o ++ a ++ w "." ++ b ++ [k] ++ sign_text o' ++ w "0")) as [f|] eqn:Ef; [|destruct (Hf64 _ _ _ _ _ Ho Ha Ha' Hb Hb' He Ef)].
  exists (w "0"), (LFloat f). split; [texts|]. apply (wl_float _ _ _ _ _ _ _ Ho Ha Ha' Hb Hb' He Ef).
Qed.
Lemma r_int i c e r : eparse_int total i = EErr c e r -> viable wlit i r.
Proof.
  intros H. apply ecause_err in H as [e' H]. apply everify_err in H as [H|(-> & _)]; [|here; exact lit_one]. apply ebind_err in H as [H|(o & j & Ho & H)]; [destruct (esign_never _ _ _ _ H)|]. apply esign_ok in Ho as [-> Ho].
  apply ebind_err in H as [H|(d & j1 & Hd & H)]; [|discriminate]. apply prim_err in H as [-> _]. here. destruct (lit_int _ _ Ho) as [v Hv]. exists (w "1"), v. split; [texts|exact Hv].
Qed.
Lemma r_string i c e r : eparse_string total i = EErr c e r -> viable wlit i r.
Proof.
  intros H. apply ebind_err in H as [H|(u & j & Hu & H)].
  { apply prim_err in H as [-> _]. here. exists ([34] ++ [] ++ [34]), (LString []). split; [texts|]. constructor. constructor. }
  apply prim_ok, char_inv in Hu as ->. apply viable_pre. apply ecut_err in H as [c' H]. apply ebind_err in H as [H|(l & k & Hl & H)].
  - apply fragments_err in H as (x & a & j' & -> & H & Hx). apply viable_pre. apply (viable_sub _ _ _ _ (c_fragment _ _ _ H)). intros s v [Hs [t Ht]]. exists [34], (LString (a ++ v)). split; [texts|].
    eapply retext; [apply wl_string, (Hx s v Hs)|rewrite <- !app_assoc; reflexivity]. intros _. subst s. cbn [nwhead]. intros Hw. inversion Hw; subst. lia.
  - apply fragments_ok in Hl as (x & -> & Hx). apply ebind_err in H as [H|(u1 & k1 & _ & H)]; [|discriminate]. apply prim_err in H as [-> _]. here. exists [34], (LString (concat l ++ [])). split; [texts|].
    constructor. rewrite <- (app_nil_r x). apply Hx; [constructor|exact (fun _ => I)].
Qed.
(** One or more elements with commas between them. *)
Section Separated.
Context {A : Type} (ep : eparser A) (p : parser A) (E : str -> A -> Prop) (ly : layer).
Hypothesis Hf : follows total shown ep p.
Hypothesis Hp : forall i a r, p i = POk a r -> exists s, i = s ++ r /\ E s a.
Hypothesis Hr : recovers ep E.
Hypothesis Hl : shown ly.
Notation esep := (ews total ly (prim total ly comma)).
Lemma esep_nocut i e r : esep i <> EErr true e r.
Proof. intros H. apply ews_err in H as (b & j & _ & _ & H). exact (prim_nocut _ _ _ _ _ _ (nc_char _) H). Qed.
Lemma sep_loop_err n : forall i c e r, eseparated_loop n ep esep i = EErr c e r -> exists b j, viable (fun s a => exists b s', s = b ++ w "," ++ s' /\ White b /\ wseparated E s' a) i r /\ i = b ++ j.
Proof.
  induction n as [|n IH]; intros i c e r H; cbn [eseparated_loop] in H; [discriminate|]. exists [], i. split; [|reflexivity].
  assert (Hsep : forall j u k, esep j = EOk u k -> exists b, j = b ++ w "," ++ k /\ White b).
  { intros j u k H'. apply f_ews, ws_inv in H' as (b & j' & -> & Hb & H'); [|apply m_char]. apply char_inv in H' as ->. exists b. auto. }
  destruct (ebind esep (fun _ => ep) i) as [a j|[] e' j| |] eqn:Ee; try discriminate.
  - destruct (length j =? length i)%nat; [discriminate|]. destruct (eseparated_loop n ep esep j) as [l' r'|c' e' r'| |] eqn:El; try discriminate. assert (r' = r) as -> by congruence.
    apply ebind_ok in Ee as (u & k & Hs & Ee). apply Hsep in Hs as (b & -> & Hb). apply (okp _ _ _ _ _ _ _ Hf) in Ee. apply Hp in Ee as (s & -> & Hs). apply IH in El as (_ & _ & El & _).
    do 3 apply viable_pre. apply (viable_mono _ _ _ _ El). intros s' l (b' & s2 & -> & Hb' & Hs2). exists (a :: l). exists b, (s ++ b' ++ w "," ++ s2). split; [reflexivity|]. split; [exact Hb|]. constructor; assumption.
  - assert (j = r) as -> by congruence. apply ebind_err in Ee as [Ee|(u & k & Hs & Ee)]; [destruct (esep_nocut _ _ _ Ee)|]. apply Hsep in Hs as (b & -> & Hb). do 2 apply viable_pre. apply (viable_mono _ _ _ _ (Hr _ _ _ _ Ee)).
    intros s a Hs. exists [a]. exists b, s. split; [reflexivity|]. split; [exact Hb|]. constructor. exact Hs.
Qed.
Lemma r_separated1 : recovers (eseparated1 ep esep) (wseparated E).
Proof.
  intros i c e r H. apply ebind_err in H as [H|(a & j & Ha & H)]; [apply (viable_mono _ _ _ _ (Hr _ _ _ _ H)); intros s a Hs; exists [a]; constructor; exact Hs|]. apply (okp _ _ _ _ _ _ _ Hf) in Ha. apply Hp in Ha as (s & -> & Hs).
  apply ebind_err in H as [H|(l & k & _ & H)]; [|discriminate]. apply sep_loop_err in H as (_ & _ & H & _). apply viable_pre. apply (viable_mono _ _ _ _ H). intros s' l (b & s2 & -> & Hb & Hs2). exists (a :: l). constructor; assumption.
Qed.
Lemma separated1_ok i l r : eseparated1 ep esep i = EOk l r -> exists s, i = s ++ r /\ wseparated E s l.
Proof.
  intros H. eapply separated1_sound; [exact Hp|]. eapply okp; [|exact H]. apply f_separated1; [exact Hf|]. apply f_ws; [exact Hl|]. apply f_prim; [exact Hl|apply m_char].
Qed.
End Separated.
Lemma wbyte1 : wbyte (w "1") 1. Proof. constructor; [exact dec1|lia]. Qed.
Lemma lyl : shown LyLiteral. Proof. split; discriminate. Qed.
Lemma lya : shown LyAttribute. Proof. split; discriminate. Qed.
Lemma bytes_lit s l b : wseparated (behind wbyte) s l -> White b -> wlit ([91] ++ s ++ b ++ [93]) (LBytes l).
Proof. intros Hs Hb. destruct (sep_list _ _ _ Hs) as (l' & x & -> & Hs1 & _). apply wl_bytes with (t := false). constructor; auto. Qed.
Lemma bytes_lit2 s l b b' : wseparated (behind wbyte) s l -> White b -> White b' -> wlit ([91] ++ s ++ b ++ [44] ++ b' ++ [93]) (LBytes l).
Proof.
  intros Hs Hb Hb'. destruct (sep_list _ _ _ Hs) as (l' & x & -> & _ & Hs1). apply wl_bytes with (t := true). eapply retext; [constructor; [apply (Hs1 b Hb)|exact Hb']|]. rewrite <- !app_assoc. reflexivity.
Qed.
Lemma r_bytes i c e r : eparse_bytes total i = EErr c e r -> viable wlit i r.
Proof.
  assert (Hone : forall b, White b -> wseparated (behind wbyte) (b ++ w "1") [1]). { intros b Hb. constructor. constructor; [exact Hb|exact wbyte1]. }
  intros H. apply ebind_err in H as [H|(u & j & Hu & H)].
  { apply prim_err in H as [-> _]. here. exists ([91] ++ ([] ++ w "1") ++ [] ++ [93]), (LBytes [1]). split; [texts|]. apply bytes_lit; [apply Hone|]; apply Forall_nil. }
  apply prim_ok, char_inv in Hu as ->. apply viable_pre. apply ecut_err in H as [c' H].
  assert (Hf : follows total shown (ews total LyLiteral (prim total LyLiteral (dec_uint 255))) (ws (dec_uint 255))).
  { apply f_ws; [exact lyl|]. apply f_prim; [exact lyl|apply m_uint]. }
  assert (Hr : recovers (ews total LyLiteral (prim total LyLiteral (dec_uint 255))) (behind wbyte)).
  { intros i2 c2 e2 r2 H2. apply ews_err in H2 as (b & j2 & -> & Hb & H2). apply prim_err in H2 as [-> _]. here. exists (w "1"), 1. split; [texts|]. constructor; [exact Hb|exact wbyte1]. }
  apply ebind_err in H as [H|(l & k & Hl & H)].
  - apply (r_separated1 _ _ _ LyLiteral Hf (ws_sound _ wbyte (byte_sound nf)) Hr) in H. apply (viable_sub _ _ _ _ H). intros s l Hs. exists ([] ++ [93]), (LBytes l). split; [texts|]. apply bytes_lit; [exact Hs|apply Forall_nil].
  - apply (separated1_ok _ _ _ LyLiteral Hf (ws_sound _ wbyte (byte_sound nf)) lyl) in Hl as (s & -> & Hs). apply viable_pre.
    apply ebind_err in H as [H|(o & k1 & Ho & H)]; [apply eopt_err in H as [_ H]; destruct (esep_nocut _ _ _ _ H)|]. apply ebind_err in H as [H|(u2 & k2 & _ & H)]; [|discriminate]. apply ews_char_err in H as (b & -> & Hb).
    assert (Ho' : k = b ++ r \/ exists b', k = b' ++ [44] ++ b ++ r /\ White b').
    { assert (Ho' : opt (ws comma) k = POk o (b ++ r)). { eapply okp; [|exact Ho]. apply f_opt, f_ws; [exact lyl|]. apply f_prim; [exact lyl|apply m_char]. }
      apply opt_inv in Ho' as [(y & -> & Hy)|(-> & -> & _)]; [right|left; reflexivity]. apply ws_inv in Hy as (b' & j' & -> & Hb' & Hy). apply char_inv in Hy as ->. exists b'. auto. }
    destruct Ho' as [->|(b' & -> & Hb')]; here; exists [93], (LBytes l); (split; [texts|]); [apply bytes_lit; assumption|]. apply bytes_lit2; assumption.
Qed.
Lemma r_literal : recovers (eparse_literal total parse_f64) wlit.
Proof.
  intros i c e r H. apply within_err in H as [e' H]. apply ebind_err in H as [H|(x & j & Hx & H)]; [apply prim_err in H as [-> _]; here; exact lit_one|]. apply prim_ok, peek_inv in Hx as (-> & _).
  destruct (x =? 116); [|destruct (x =? 102); [|destruct (is_sign x || is_digit x); [|destruct (x =? 34); [|destruct (x =? 91)]]]].
  - apply ebind_err in H as [H|(u & k & _ & H)]; [|discriminate]. apply prim_err in H as [-> _]. here. exact lit_one.
  - apply ebind_err in H as [H|(u & k & _ & H)]; [|discriminate]. apply prim_err in H as [-> _]. here. exact lit_one.
  - apply ecut_err in H as [c' H]. apply ealt_err in H as [[-> H]|[_ H]]; apply emap_err in H; [exact (c_float _ _ _ H)|exact (r_int _ _ _ _ H)].
  - apply emap_err in H. exact (r_string _ _ _ _ H).
  - apply emap_err in H. exact (r_bytes _ _ _ _ H).
  - assert (i = r) as -> by (unfold efail in H; congruence). here. exact lit_one.
Qed.

(** * Attributes *)
Notation wattr := (wattr parse_f64).
Definition vsound (pv : parser (attr_value F)) : Prop := forall n i v r, LowerName n -> pv i = POk v r -> exists s, i = s ++ r /\ wattr (n ++ s) (Attr n v).
Definition vrecovers (epv : eparser (attr_value F)) : Prop := forall n i c e r, LowerName n -> epv i = EErr c e r -> viable (fun s a => wattr (n ++ s) a) i r.
Section Attrs.
Variables (epv : eparser (attr_value F)) (pv : parser (attr_value F)).
Hypothesis Hf : follows total shown epv pv.
Hypothesis Hp : vsound pv.
Hypothesis Hr : vrecovers epv.
Notation eattr := (ews total LyAttribute (ebind (prim total LyAttribute lower_name) (fun n => ebind epv (fun v => eret (Attr n v))))).
Notation attr1 := (ws (pdo n <- lower_name; pdo v <- pv; pret (Attr n v))).
Lemma f_eattr : follows total shown eattr attr1.
Proof.
  apply f_ws; [exact lya|]. apply f_bind; [apply f_prim; [exact lya|apply m_ident]|]. intros n. apply f_bind; [exact Hf|]. intros v. apply f_ret.
Qed.
Lemma attr1_sound i a r : attr1 i = POk a r -> exists s, i = s ++ r /\ behind wattr s a.
Proof.
  apply ws_sound. clear i a r. intros i a r H. apply bind_inv in H as (n & j & Hn & H). apply lower_name_inv in Hn as [-> Hn]. apply bind_inv in H as (v & k & Hv' & H). apply ret_inv in H as [<- ->].
  destruct (Hp _ _ _ _ Hn Hv') as (s & -> & Hs). exists (n ++ s). split; [rewrite <- app_assoc; reflexivity|exact Hs].
Qed.
Lemma r_eattr : recovers eattr (behind wattr).
Proof.
  intros i c e r H. apply ews_err in H as (b & j & -> & Hb & H). apply viable_pre. apply ebind_err in H as [H|(n & k & Hn & H)].
  - apply prim_err in H as [-> _]. here. exists (w "a"), (Attr (w "a") AUnit). split; [texts|]. constructor; [exact Hb|]. constructor. exact lowera.
  - apply prim_ok, lower_name_inv in Hn as [-> Hn]. apply viable_pre. apply ebind_err in H as [H|(v & k' & _ & H)]; [|discriminate]. apply (viable_mono _ _ _ _ (Hr _ _ _ _ _ Hn H)). intros s a Hs. exists a. constructor; assumption.
Qed.
Lemma r_attr_list : recovers (eattr_list total epv) (wseparated (behind wattr)).
Proof.
  intros i c e r H. apply ebind_err in H as [H|(l & k & _ & H)]; [exact (r_separated1 _ _ _ LyAttribute f_eattr attr1_sound r_eattr _ _ _ _ H)|].
  apply ebind_err in H as [H|(o & k1 & _ & H)]; [apply eopt_err in H as [_ H]; destruct (prim_nocut _ _ _ _ _ _ (nc_char _) H)|discriminate].
Qed.
Lemma attr_list_ok i l r : eattr_list total epv i = EOk l r -> exists s cm, i = s ++ cm ++ r /\ wseparated (behind wattr) s l /\ wcomma cm.
Proof. intros H. apply (okp _ _ _ _ _ _ _ (f_attr_list total _ _ Hf)) in H. exact (attr_list_sound _ _ _ _ _ Hp H). Qed.
(** The list up to a closing character. *)
Definition wclosed (k : N) (s : str) (l : list (attr F)) : Prop := exists x cm b, s = x ++ cm ++ b ++ [k] /\ wseparated (behind wattr) x l /\ wcomma cm /\ White b.
Lemma r_closed k : text [k] -> recovers (ebind (eattr_list total epv) (fun l => ebind (ews total LyAttribute (prim total LyAttribute (char k))) (fun _ => eret l))) (wclosed k).
Proof.
  intros Hk i c e r H. apply ebind_err in H as [H|(l & j & Hl & H)].
  - apply (viable_sub _ _ _ _ (r_attr_list _ _ _ _ H)). intros s l Hs. exists [k], l. split; [exact Hk|]. exists s, [], []. repeat split; [exact Hs|constructor|apply Forall_nil].
  - apply attr_list_ok in Hl as (s & cm & -> & Hs & Hcm). apply ebind_err in H as [H|(u & j1 & _ & H)]; [|discriminate]. apply ews_char_err in H as (b & -> & Hb). here. exists [k], l. split; [exact Hk|]. exists s, cm, b. auto.
Qed.
End Attrs.
Lemma r_value n : vrecovers (eparse_value total parse_f64 n).
Proof.
  induction n as [|n IH]; intros nm i c e r Hn H; cbn [eparse_value] in H; [discriminate|].
  apply ealt_err in H as [[-> H]|[_ H]]; [|apply ealt_err in H as [[-> H]|[_ H]]; [|discriminate]].
  - apply ebind_err in H as [H|(u & j & Hu & H)]; [destruct (prim_nocut _ _ _ _ _ _ (nc_char _) H)|]. apply prim_ok, char_inv in Hu as ->. apply viable_pre. apply emap_err, ecut_err in H as [c' H].
    refine (viable_mono _ _ _ _ (r_closed _ _ (f_value total parse_f64 n) (value_sound parse_f64 n) IH 41 _ _ _ _ _ H) _); [texts|]. intros s l (x & cm & b & -> & Hx & Hcm & Hb). exists (Attr nm (AMulti l)). constructor; assumption.
  - apply emap_err in H. apply ebind_err in H as [H|(u & j & Hu & H)]; [destruct (prim_nocut _ _ _ _ _ _ nc_space0 H)|]. apply prim_ok, space0_inv in Hu as (b1 & -> & Hb1).
    apply ebind_err in H as [H|(u1 & j1 & Hu & H)]; [destruct (prim_nocut _ _ _ _ _ _ (nc_char _) H)|]. apply prim_ok, char_inv in Hu as ->. apply ebind_err in H as [H|(u2 & j2 & Hu & H)]; [destruct (prim_nocut _ _ _ _ _ _ nc_space0 H)|]. apply prim_ok, space0_inv in Hu as (b2 & -> & Hb2).
    do 3 apply viable_pre. apply (viable_mono _ _ _ _ (r_literal _ _ _ _ H)). intros s v Hs. exists (Attr nm (ASingle v)). constructor; assumption.
Qed.
Lemma epvalue_recovers : vrecovers (epvalue total parse_f64). Proof. intros n i. apply r_value. Qed.
Lemma pvalue_sound : vsound (pvalue parse_f64). Proof. intros n i v r Hn H. exact (value_sound parse_f64 _ n i v r Hn H). Qed.
Lemma f_epvalue : follows total shown (epvalue total parse_f64) (pvalue parse_f64). Proof. exact (f_pvalue total parse_f64). Qed.
Notation wattr_line := (wattr_line parse_f64).
Notation eline := (ebind (eparse_attribute total parse_f64) (fun l => ebind (prim total LyAttribute (char 10)) (fun _ => eret l))).
Lemma c_line i e r : eline i = EErr true e r -> exists j, i = [35] ++ j /\ viable (fun s l => wattr_line ([35] ++ s) l) j r.
Proof.
  intros H. apply ebind_err in H as [H|(l & j & _ & H)]; [|apply ebind_err in H as [H|(u & k & _ & H)]; [destruct (prim_nocut _ _ _ _ _ _ (nc_char _) H)|discriminate]].
  apply ebind_err in H as [H|(u & j & Hu & H)]; [destruct (prim_nocut _ _ _ _ _ _ (nc_char _) H)|]. apply prim_ok, char_inv in Hu as ->. apply ebind_err in H as [H|(u1 & k & Hu & H)]; [destruct (prim_nocut _ _ _ _ _ _ (nc_char _) H)|]. apply prim_ok, char_inv in Hu as ->.
  exists ([91] ++ k). split; [reflexivity|]. apply viable_pre. apply ecut_err in H as [c' H].
  refine (viable_sub _ _ _ _ (r_closed _ _ f_epvalue pvalue_sound epvalue_recovers 93 _ _ _ _ _ H) _); [texts|]. intros s l (x & cm & b & -> & Hx & Hcm & Hb). exists [10], l. split; [texts|].
  eapply retext; [exact (wattr_line_intro parse_f64 x l cm b Hx Hcm Hb)|]. change (w "#[") with ([35] ++ [91]). change (w "]") with [93]. rewrite <- !app_assoc. reflexivity.
Qed.
Lemma f_eline : follows total shown eline (pdo l <- parse_attribute parse_f64; char 10 ;; pret l).
Proof. apply f_bind; [exact (f_attribute total parse_f64)|]. intros l. apply f_bind; [apply f_prim; [exact lya|apply m_char]|]. intros _. apply f_ret. Qed.
Lemma line_ok i l r : eline i = EOk l r -> exists s, i = s ++ r /\ wattr_line s l.
Proof.
  intros H. apply (okp _ _ _ _ _ _ _ f_eline) in H. apply bind_inv in H as (l' & j & H & H'). apply bind_inv in H' as (u & k & Hc & H'). apply char_inv in Hc as ->. apply ret_inv in H' as [<- ->].
  unfold parse_attribute in H. apply bind_inv in H as (u1 & k1 & Hc & H). apply char_inv in Hc as ->. apply bind_inv in H as (u2 & k2 & Hc & H). apply char_inv in Hc as ->. apply cut_inv in H. apply bind_inv in H as (l2 & k3 & Hl & H).
  apply bind_inv in H as (u3 & k4 & Hw & H). apply ret_inv in H as [<- ->]. apply ws_inv in Hw as (b & k5 & -> & Hb & Hw). apply char_inv in Hw as ->. apply (attr_list_sound parse_f64) in Hl as (s & cm & -> & Hs & Hcm); [|exact pvalue_sound].
  exists (w "#[" ++ s ++ cm ++ b ++ w "]" ++ [10]). split; [|constructor; assumption]. change (w "#[") with ([35] ++ [91]). change (w "]") with [93]. rewrite <- !app_assoc. reflexivity.
Qed.
Lemma lines_err n : forall i c e r, erepeat_loop n eline i = EErr c e r -> exists j, i = [35] ++ j /\ viable (fun s l => wmany wattr_line ([35] ++ s) l) j r.
Proof.
  induction n as [|n IH]; intros i c e r H; cbn [erepeat_loop] in H; [discriminate|]. destruct (eline i) as [a j|[] e' j| |] eqn:Ef; try discriminate.
  - destruct (length j =? length i)%nat; [discriminate|]. destruct (erepeat_loop n _ j) as [l' r'|c' e' r'| |] eqn:El; try discriminate. assert (r' = r) as -> by congruence.
    apply line_ok in Ef as (s & -> & Hs). apply IH in El as (k & -> & El). assert (Hs' : exists z, s = [35] ++ z) by (destruct Hs; eexists; reflexivity). destruct Hs' as [z ->].
    exists (z ++ [35] ++ k). split; [rewrite <- app_assoc; reflexivity|]. do 2 apply viable_pre. apply (viable_mono _ _ _ _ El). intros x l Hx. exists (a :: l). eapply retext; [exact (wm_cons _ _ _ _ _ Hs Hx)|rewrite <- app_assoc; reflexivity].
  - assert (j = r) as -> by congruence. apply c_line in Ef as (k & -> & Ef). exists k. split; [reflexivity|]. apply (viable_mono _ _ _ _ Ef). intros s l Hs. exists [l]. eapply retext; [apply (wm_cons _ _ l [] [] Hs); constructor|apply app_nil_r].
Qed.
Lemma r_attributes i c e r : eattributes total parse_f64 i = EErr c e r -> exists j, i = [35] ++ j /\ viable (fun s a => wattrs parse_f64 ([35] ++ s) a) j r.
Proof.
  intros H. apply within_err in H as [e' H]. apply emap_err in H. apply lines_err in H as (j & -> & H). exists j. split; [reflexivity|]. apply (viable_mono _ _ _ _ H). intros s l Hs. exists (concat l). constructor. exact Hs.
Qed.
End Lit.
End Total.
