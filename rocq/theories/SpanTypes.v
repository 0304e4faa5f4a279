(** Locations of types, fields and definitions. *)
From Verif Require Import Base Syntax Parser ParserSpec ParserTotal ParserRound ParserRound2 CostProofs Printer Lsp LspSpec SpanParser LspVisit TokenSpec SpanProofs.
Require Coq.Strings.String.
Import Coq.Strings.String.StringSyntax.
Local Open Scope N_scope.

Lemma take_inv m f i a r : take_while m f i = POk a r -> i = a ++ r /\ forallb f a = true /\ (m <= length a)%nat.
Proof.
  unfold take_while. destruct (span_split f i) as (x & y & -> & -> & Hf & _). destruct (length x <? m)%nat eqn:E; [discriminate|]. intros H. injection H as <- <-.
  apply Nat.ltb_ge in E. auto.
Qed.
Lemma basic_keyword_text k p : basic_keyword k = Some p -> k = pr_prim p.
Proof.
  unfold basic_keyword. intros H.
  repeat match type of H with (if str_eqb k ?s then _ else _) = _ => let E := fresh in destruct (str_eqb k s) eqn:E; [apply str_eqb_eq in E; subst k; injection H as <-; reflexivity|clear E] end.
  discriminate.
Qed.
Lemma basic_inv i t r : parse_basic i = POk t r -> exists p, t = PPrim p /\ i = pr_prim p ++ r.
Proof.
  unfold parse_basic, alt, pbind.
  destruct (take_while 2 basic_char i) as [k j| | | |] eqn:E; try discriminate.
  - apply take_inv in E as (-> & _ & _). destruct (basic_keyword k) as [p|] eqn:Ek.
    + apply basic_keyword_text in Ek. subst k. cbn. intros H. injection H as <- <-. exists p. auto.
    + cbn [pfail]. remember (k ++ j) as s. destruct (tag (tx "box<string>") s) as [[] r'| | | |] eqn:E; try discriminate.
      * apply tag_inv in E. cbn. intros H. injection H as <- <-. exists PrBoxString. split; [reflexivity|exact E].
      * destruct (tag (tx "box<bytes>") s) as [[] r'| | | |] eqn:E'; try discriminate. apply tag_inv in E'. cbn. intros H. injection H as <- <-.
        exists PrBoxBytes. split; [reflexivity|exact E'].
  - destruct (tag (tx "box<string>") i) as [[] r'| | | |] eqn:E1; try discriminate.
    + apply tag_inv in E1. cbn. intros H. injection H as <- <-. exists PrBoxString. split; [reflexivity|exact E1].
    + destruct (tag (tx "box<bytes>") i) as [[] r'| | | |] eqn:E'; try discriminate. apply tag_inv in E'. cbn. intros H. injection H as <- <-.
      exists PrBoxBytes. split; [reflexivity|exact E'].
Qed.
Lemma prim_line p : pr_prim p <> [] /\ ~ In nl (pr_prim p).
Proof. destruct p; (split; [discriminate|]); cbn; unfold nl; intros H; repeat (destruct H as [H|H]; [discriminate|]); exact H. Qed.

(** Numbers without leading zeros. *)
Definition lead (l : str) : Prop := match l with c :: _ => 49 <= c | [] => True end.
Lemma dec_snoc a c : dec_value (a ++ [c]) = dec_value a * 10 + (c - 48).
Proof. rewrite dec_value_app. reflexivity. Qed.
Lemma dec_pos l : l <> [] -> lead l -> 0 < dec_value l.
Proof.
  intros Hn. destruct l as [|c l]; [congruence|]. cbn [lead]. intros Hc. clear Hn. induction l as [|x l IH] using rev_ind.
  - unfold dec_value. cbn [fold_left]. lia.
  - rewrite app_comm_cons, dec_snoc. lia.
Qed.
Lemma lead_app a b : a <> [] -> lead (a ++ b) -> lead a.
Proof. destruct a; [congruence|]. auto. Qed.
Lemma dec_inj a : forall b, Forall digit a -> Forall digit b -> lead a -> lead b -> dec_value a = dec_value b -> a = b.
Proof.
  induction a as [|x a IH] using rev_ind; intros b Ha Hb La Lb E.
  - destruct b as [|y b]; [reflexivity|]. pose proof (dec_pos (y :: b) ltac:(discriminate) Lb) as P. change (dec_value []) with 0 in E. lia.
  - destruct b as [|y b _] using rev_ind.
    + pose proof (dec_pos (a ++ [x])) as P. destruct a; cbn [app] in *; (specialize (P ltac:(discriminate) La); change (dec_value []) with 0 in E; lia).
    + apply Forall_app in Ha as [Ha Hx]. apply Forall_app in Hb as [Hb Hy]. inversion Hx as [|? ? Hx' _]; subst. inversion Hy as [|? ? Hy' _]; subst.
      rewrite !dec_snoc in E. unfold digit in Hx', Hy'. assert (Exy : x = y) by lia. subst y. assert (Ev : dec_value a = dec_value b) by lia.
      f_equal. destruct a as [|a0 a].
      * destruct b as [|b0 b]; [reflexivity|]. pose proof (dec_pos (b0 :: b) ltac:(discriminate) Lb) as P. change (dec_value []) with 0 in Ev. lia.
      * destruct b as [|b0 b]; [pose proof (dec_pos (a0 :: a) ltac:(discriminate) La) as P; change (dec_value []) with 0 in Ev; lia|].
        apply IH; assumption.
Qed.
Lemma dec_uint_inv max i n r : dec_uint max i = POk n r -> i = dec_str n ++ r.
Proof.
  unfold dec_uint. destruct i as [|c i]; [discriminate|]. destruct ((49 <=? c) && (c <=? 57)) eqn:Ec.
  - destruct (span_split is_digit i) as (a & b & -> & -> & Hf & _). destruct (dec_value (c :: a) <=? max); [|discriminate]. intros H. injection H as <- <-.
    destruct (dec_str_spec (dec_value (c :: a))) as (c' & d & E & Hd & Hv & Hz). rewrite E. cbn [app].
    assert (Da : Forall digit (c :: a)).
    { apply andb_prop in Ec as [E1 E2]. apply N.leb_le in E1, E2. constructor; [unfold digit; lia|]. rewrite Forall_forall. intros x Hx.
      rewrite forallb_forall in Hf. specialize (Hf x Hx). unfold is_digit in Hf. apply andb_prop in Hf as [F1 F2]. apply N.leb_le in F1, F2. unfold digit. lia. }
    assert (La : lead (c :: a)) by (apply andb_prop in Ec as [E1 E2]; apply N.leb_le in E1; exact E1).
    assert (Eq : c :: a = c' :: d).
    { apply dec_inj; [exact Da|exact Hd|exact La| |congruence]. destruct Hz as [(Hz & _)|(_ & Hz)]; [|cbn; lia].
      pose proof (dec_pos (c :: a) ltac:(discriminate) La). lia. }
    injection Eq as -> ->. reflexivity.
  - destruct (c =? 48) eqn:E0; [|discriminate]. intros H. injection H as <- <-. apply N.eqb_eq in E0. subst c. reflexivity.
Qed.
Lemma digits_no_nl n : ~ In nl (dec_str n).
Proof. destruct (dec_str_spec n) as (c & d & -> & Hd & _). intros H. rewrite Forall_forall in Hd. apply Hd in H. unfold digit, nl in H. lia. Qed.

Ltac noline := let H := fresh in cbn; unfold nl; intros H; repeat (destruct H as [H|H]; [discriminate|]); exact H.

Section Total.
Variable total : N.
Notation offs := (offs total).
Notation tokd := (tokd total).
Notation good := (good total).
Notation at1 := (at1 total).
Definition tgood (i r : str) (t : lty) (b : pty) : Prop := good er_ty type_toks type_items i r t b.
(** The same for a type whose location is not yet known. *)
Definition pgood (i r : str) (f : loc -> lty) (b : pty) : Prop := tgood i r (f (offs i, offs r)) b.

Lemma both_basic i : both (pgood i) (lparse_basic i) (parse_basic i).
Proof.
  unfold lparse_basic, pbind. destruct (parse_basic i) as [t r| | | |] eqn:E; try exact I. apply basic_inv in E as (p & -> & ->).
  split; [reflexivity|]. split; [reflexivity|]. cbn [type_toks type_items]. apply tokd_one; [reflexivity|apply prim_line..].
Qed.

Section Types.
Variables (p : parser lty) (q : parser pty).
Hypothesis Hpq : forall i, text i -> both (tgood i) (p i) (q i).
Lemma both_single k kw mk i0 i (w : str) : (forall s o c t, er_ty (LTOne s k kw o c t) = mk (er_ty t)) ->
  (forall t, type_items (mk t) = word TkBuiltinType w :: between TkAngle (tx "<") (type_items t) (tx ">")) ->
  text i -> at1 i0 i w kw -> w <> [] -> ~ In nl w ->
  both (fun r f b => tgood i0 r (f (offs i0, offs r)) b) (lparse_single total k kw p i) (parse_single mk q i).
Proof.
  intros Her Hit Ht Hkw Hw Hn. unfold lparse_single, parse_single. apply both_cut, both_map_l, both_map_r.
  eapply both_weak; [|apply (both_surround total 60 62 tgood); [exact Ht|intros j m a b [_ H]; exact (tokd_sfx _ _ _ _ _ H)|intros j Hj _; apply Hpq; exact Hj]].
  intros r [[o c] t] b H. apply (enclosed_toks total 60 62 er_ty type_toks type_items i r _ b TkAngle) in H as [-> H]; [|discriminate..]. cbn [fst snd] in *.
  split; [symmetry; apply Her|]. rewrite Hit. cbn [type_toks]. change (tokd i0 r ([TSpan kw TkBuiltinType []] ++ (tk o TkAngle :: type_toks t ++ [tk c TkAngle]))
    ([word TkBuiltinType w] ++ between TkAngle [60] (type_items (er_ty t)) [62])).
  apply (tokd_app total i0 i r); [|exact H]. eapply at1_tok; [exact Hkw|reflexivity|exact Hw|exact Hn].
Qed.
Definition pair_of (x : lty * loc * lty) : pty := let '(k, _, v) := x in PHashMap (er_ty k) (er_ty v).
Lemma both_pair kw i0 i : text i -> at1 i0 i (tx "hash_map") kw ->
  both (fun r f b => tgood i0 r (f (offs i0, offs r)) b) (lparse_pair total kw p i) (parse_pair q i).
Proof.
  intros Ht Hkw. unfold lparse_pair, parse_pair. apply both_cut, both_map_l.
  pose (ta := fun x : lty * loc * lty => let '(k, m, v) := x in type_toks k ++ tk m TkComma :: type_toks v).
  pose (sb := fun b => match b with PHashMap k v => type_items k ++ comma_item :: type_items v | _ => [] end).
  eapply both_weak; [|apply (both_surround total 60 62 (good pair_of ta sb)); [exact Ht|intros j m a b [_ H]; exact (tokd_sfx _ _ _ _ _ H)|intros j Hj _]].
  - intros r [[o c] [[k m] v]] b H. apply (enclosed_toks total 60 62 pair_of ta sb i r _ b TkAngle) in H as [-> H]; [|discriminate..]. cbn [fst snd pair_of ta sb] in *.
    split; [reflexivity|]. cbn [type_toks type_items er_ty].
    apply (tokd_app total i0 i r [_] _ [_]); [eapply at1_tok; [exact Hkw|reflexivity|discriminate|noline]|]. rewrite <- app_assoc in H. exact H.
  - eapply both_bind; [apply Hpq; exact Hj|]. intros k b j1 [-> H1]. pose proof (sfx_text _ _ (tokd_sfx _ _ _ _ _ H1) Hj) as T1.
    apply both_space0; [exact T1|]. intros j2 S2 T2. eapply both_bind; [apply both_char|]. intros m u j3 H3.
    pose proof (sfx_text _ _ (at1_sfx _ _ _ _ _ H3) T2) as T3. apply both_space0; [exact T3|]. intros j4 S4 T4.
    eapply both_bind; [apply Hpq; exact T4|]. intros v b j5 [-> H5]. apply both_ret. split; [reflexivity|]. cbn [pair_of ta sb].
    apply (tokd_app total j j1 j5); [exact H1|]. apply (tokd_pre total j1 j2); [exact S2|].
    apply (tokd_app total j2 j3 j5 [_] _ [_]); [eapply at1_tok; [exact H3|reflexivity|discriminate|noline]|]. apply (tokd_pre total j3 j4); assumption.
Qed.
Lemma both_generic i : text i -> both (pgood i) (lparse_generic total p i) (parse_generic q i).
Proof.
  intros Ht. unfold lparse_generic, parse_generic.
  eapply (both_bind (fun r a b => fst a = b /\ at1 i r b (snd a))).
  - apply both_span. destruct (take_while 3 generic_char i) as [k r| | | |] eqn:E; cbn; auto. apply take_inv in E as (-> & _ & _).
    split; [reflexivity|]. split; [reflexivity|]. split; reflexivity.
  - intros [k kw] b j [E Hk]. cbn [fst snd] in *. subst b. assert (Tj : text j) by exact (sfx_text _ _ (at1_sfx _ _ _ _ _ Hk) Ht).
    destruct (str_eqb k (tx "vec")) eqn:E; [apply str_eqb_eq in E; subst k; unfold pgood; apply (both_single _ _ _ i j (tx "vec")); try assumption; try reflexivity; [discriminate|noline]|clear E].
    destruct (str_eqb k (tx "hash_map")) eqn:E; [apply str_eqb_eq in E; subst k; unfold pgood; apply both_pair; assumption|clear E].
    destruct (str_eqb k (tx "hash_set")) eqn:E; [apply str_eqb_eq in E; subst k; unfold pgood; apply (both_single _ _ _ i j (tx "hash_set")); try assumption; try reflexivity; [discriminate|noline]|clear E].
    destruct (str_eqb k (tx "option")) eqn:E; [apply str_eqb_eq in E; subst k; unfold pgood; apply (both_single _ _ _ i j (tx "option")); try assumption; try reflexivity; [discriminate|noline]|clear E].
    destruct (str_eqb k (tx "non_zero")) eqn:E; [apply str_eqb_eq in E; subst k; unfold pgood; apply (both_single _ _ _ i j (tx "non_zero")); try assumption; try reflexivity; [discriminate|noline]|clear E].
    exact I.
Qed.
Lemma both_tuple i : text i -> both (pgood i) (lparse_tuple total p i) (parse_tuple q i).
Proof.
  intros Ht. unfold lparse_tuple, parse_tuple. apply both_map_l, both_map_r.
  eapply both_weak; [|apply (both_surround total 40 41 (good (perase er_ty) (punct_toks type_toks) (punct_items type_items)));
    [exact Ht|intros j m a b [_ H]; exact (tokd_sfx _ _ _ _ _ H)|intros j Hj _]].
  - intros r [[o c] [l x t]] b H. apply (enclosed_toks total 40 41 _ _ _ i r _ b TkParenthesis) in H as [-> H]; [|discriminate..]. cbn [fst snd] in *.
    split; [reflexivity|]. exact H.
  - apply (both_punctuated total er_ty type_toks type_items (ws p) (ws q) (length j)); [|exact Hj|lia]. intros k Hk _. apply both_ws; [exact Hk|].
    intros m Sm Tm. eapply both_weak; [|apply Hpq; exact Tm]. intros r a b [-> H]. split; [reflexivity|]. exact (tokd_pre total k m _ _ _ Sm H).
Qed.
Definition array_of (x : lty * loc * N) : pty := let '(t, _, n) := x in PArray (er_ty t) n.
Lemma both_array i : text i -> both (pgood i) (lparse_array total p i) (parse_array q i).
Proof.
  intros Ht. unfold lparse_array, parse_array. apply both_map_l.
  pose (ta := fun x : lty * loc * N => let '(t, m, n) := x in type_toks t ++ [tk m TkSemicolon]).
  pose (sb := fun b => match b with PArray t n => type_items t ++ [word TkSemicolon (tx ";"); Silent (eq (dec_str n))] | _ => [] end).
  eapply both_weak; [|apply (both_surround total 91 93 (good array_of ta sb)); [exact Ht|intros j m a b [_ H]; exact (tokd_sfx _ _ _ _ _ H)|intros j Hj _]].
  - intros r [[o c] [[t m] n]] b H. apply (enclosed_toks total 91 93 array_of ta sb i r _ b TkBracket) in H as [-> H]; [|discriminate..]. cbn [fst snd array_of ta sb] in *.
    split; [reflexivity|]. cbn [type_toks type_items er_ty]. rewrite <- app_assoc in H. exact H.
  - eapply (both_bind (tgood j)).
    { apply both_ws; [exact Hj|]. intros m Sm Tm. eapply both_weak; [|apply Hpq; exact Tm]. intros r a b [-> H]. split; [reflexivity|]. exact (tokd_pre total j m _ _ _ Sm H). }
    intros t b j1 [-> H1]. pose proof (sfx_text _ _ (tokd_sfx _ _ _ _ _ H1) Hj) as T1.
    eapply (both_bind (fun r l _ => tokd j1 r [tk l TkSemicolon] [word TkSemicolon (tx ";")])).
    { apply both_ws; [exact T1|]. intros k Sk Tk. eapply both_weak; [|apply both_char]. intros r l u H. apply (tokd_pre total j1 k); [exact Sk|].
      eapply at1_tok; [exact H|reflexivity|discriminate|noline]. }
    intros m u j2 H2. pose proof (sfx_text _ _ (tokd_sfx _ _ _ _ _ H2) T1) as T2.
    eapply (both_bind (fun r n n' => n = n' /\ tokd j2 r [] [Silent (eq (dec_str n))])).
    { apply both_ws; [exact T2|]. intros k Sk Tk. destruct (dec_uint (2 ^ 32 - 1) k) as [n r| | | |] eqn:E; cbn; auto. apply dec_uint_inv in E. subst k.
      split; [reflexivity|]. split; [reflexivity|]. apply (tokd_pre total j2 _ _ _ _ Sk). apply tokd_silent. reflexivity. }
    intros n n' j3 [<- H3]. apply both_ret. split; [reflexivity|]. cbn [array_of ta sb]. apply (tokd_app total j j1 j3); [exact H1|].
    apply (tokd_app total j1 j2 j3 [_] [] [_]); assumption.
Qed.
Lemma both_external i : text i -> both (pgood i) (lparse_external total p i) (parse_external q i).
Proof.
  intros Ht. unfold lparse_external, parse_external.
  pose (ta := fun e : lname * loc => [tk (ln_loc (fst e)) TkNamespace; tk (snd e) TkDoubleColon]).
  pose (sb := fun s : str => [word TkNamespace s; word TkDoubleColon (tx "::")]).
  pose (h := fun e : lname * loc => ln_text (fst e)).
  eapply both_bind.
  { apply both_opt. apply (both_repeat1 total h ta sb _ _ (length i)); [|exact Ht|lia]. intros j Tj _.
    eapply both_bind; [apply both_name; reflexivity|]. intros n s j1 (-> & H1 & Hne & Hnl). eapply both_bind; [apply both_tag|]. intros d u j2 H2.
    apply both_ret. split; [reflexivity|]. unfold ta, sb, h. cbn [fst snd].
    apply (tokd_app total j j1 j2 [_] [_] [_]); [eapply at1_tok; [exact H1|reflexivity|exact Hne|exact Hnl]|]. eapply at1_tok; [exact H2|reflexivity|discriminate|noline]. }
  intros path path' j Hp.
  assert (Hp' : match path' with Some l => l | None => [] end = map h match path with Some l => l | None => [] end
    /\ tokd i j (flat_map ta match path with Some l => l | None => [] end) (flat_map sb match path' with Some l => l | None => [] end)).
  { destruct path, path'; try contradiction; [exact Hp|]. subst j. split; [reflexivity|]. apply tokd_nil, bsfx_refl. }
  clear Hp. destruct Hp' as [Ep Hp]. pose proof (sfx_text _ _ (tokd_sfx _ _ _ _ _ Hp) Ht) as Tj.
  eapply both_bind; [apply both_name; reflexivity|]. intros n s j1 (-> & H1 & Hne & Hnl). pose proof (sfx_text _ _ (at1_sfx _ _ _ _ _ H1) Tj) as T1.
  eapply both_bind.
  { apply both_opt. apply (both_surround total 60 62 (good (perase er_ty) (punct_toks type_toks) (punct_items type_items)));
    [exact T1|intros k m a b [_ H]; exact (tokd_sfx _ _ _ _ _ H)|intros k Hk _].
    apply (both_punctuated total er_ty type_toks type_items (ws p) (ws q) (length k)); [|exact Hk|lia]. intros k' Hk' _. apply both_ws; [exact Hk'|].
    intros m Sm Tm. eapply both_weak; [|apply Hpq; exact Tm]. intros r a b [-> H]. split; [reflexivity|]. exact (tokd_pre total k' m _ _ _ Sm H). }
  intros gs gs' r Hg. apply both_ret. unfold pgood, tgood, good.
  assert (Hn : tokd j j1 [tk (ln_loc n) TkType] [word TkType (ln_text n)]) by (eapply at1_tok; [exact H1|reflexivity|exact Hne|exact Hnl]).
  destruct gs as [[[o c] [l x t]]|], gs' as [g|]; try contradiction.
  - apply (enclosed_toks total 60 62 _ _ _ j1 r _ g TkAngle) in Hg as [-> Hg]; [|discriminate..]. cbn [fst snd perase p_map] in *. split; [rewrite Ep; reflexivity|].
    cbn [type_toks type_items]. apply (tokd_app total i j r); [exact Hp|]. apply (tokd_app total j j1 r [_] _ [_]); [exact Hn|exact Hg].
  - subst r. split; [rewrite Ep; reflexivity|]. cbn [type_toks type_items]. apply (tokd_app total i j j1); [exact Hp|exact Hn].
Qed.
End Types.
Lemma both_type n : forall i, text i -> both (tgood i) (lparse_type total n i) (parse_type n i).
Proof.
  induction n as [|n IH]; intros i Ht; [exact I|]. cbn [lparse_type parse_type]. apply both_map_l, both_span.
  change (both (pgood i) (alt lparse_basic (alt (lparse_generic total (lparse_type total n)) (alt (lparse_tuple total (lparse_type total n))
    (alt (lparse_array total (lparse_type total n)) (lparse_external total (lparse_type total n))))) i)
    (alt parse_basic (alt (parse_generic (parse_type n)) (alt (parse_tuple (parse_type n)) (alt (parse_array (parse_type n)) (parse_external (parse_type n))))) i)).
  apply both_alt; [apply both_basic|]. apply both_alt; [apply both_generic; assumption|]. apply both_alt; [apply both_tuple; assumption|].
  apply both_alt; [apply both_array; assumption|apply both_external; assumption].
Qed.
Lemma both_ptype i : text i -> both (tgood i) (lptype total i) (ptype i).
Proof. apply both_type. Qed.
End Total.
