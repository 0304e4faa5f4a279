(** Printing and parsing back. *)
From Verif Require Import Base Syntax Parser Printer ParserSpec ParserTotal.
Require Import ZifyN ZifyBool.
Require Coq.Strings.String.
Import Coq.Strings.String.StringSyntax.
Local Open Scope N_scope.

(** * Basics *)
Definition hn (f : N -> bool) (r : str) : Prop := match r with c :: _ => f c = false | [] => True end.
Definition sp (s : str) : Prop := forallb is_mspace s = true.

Lemma sp_nil : sp [].
Proof. reflexivity. Qed.
Lemma sp_app a b : sp a -> sp b -> sp (a ++ b).
Proof. unfold sp. rewrite forallb_app. intros -> ->. reflexivity. Qed.
Lemma sp_indent l : sp (indent l).
Proof. induction l; [reflexivity|]. cbn [indent]. apply sp_app; [reflexivity|exact IHl]. Qed.
Lemma space_indent l : forallb is_space (indent l) = true.
Proof. induction l; [reflexivity|]. cbn [indent]. rewrite forallb_app, IHl. reflexivity. Qed.

Lemma bind_ok {A B} (p : parser A) (f : A -> parser B) i a r : p i = POk a r -> pbind p f i = f a r.
Proof. intros H. unfold pbind. rewrite H. reflexivity. Qed.
Lemma bind_back {A B} (p : parser A) (f : A -> parser B) i : p i = PBack -> pbind p f i = PBack.
Proof. intros H. unfold pbind. rewrite H. reflexivity. Qed.
Lemma cut_ok {A} (p : parser A) i a r : p i = POk a r -> cut_err p i = POk a r.
Proof. intros H. unfold cut_err. rewrite H. reflexivity. Qed.
Lemma map_ok {A B} (f : A -> B) (p : parser A) i a r : p i = POk a r -> pmap f p i = POk (f a) r.
Proof. intros H. unfold pmap. rewrite (bind_ok _ _ _ _ _ H). reflexivity. Qed.
Lemma alt_back {A} (p q : parser A) i : p i = PBack -> alt p q i = q i.
Proof. intros H. unfold alt. rewrite H. reflexivity. Qed.
Lemma alt_ok {A} (p q : parser A) i a r : p i = POk a r -> alt p q i = POk a r.
Proof. intros H. unfold alt. rewrite H. reflexivity. Qed.
Lemma opt_ok {A} (p : parser A) i a r : p i = POk a r -> opt p i = POk (Some a) r.
Proof. intros H. unfold opt. rewrite H. reflexivity. Qed.
Lemma opt_back {A} (p : parser A) i : p i = PBack -> opt p i = POk None i.
Proof. intros H. unfold opt. rewrite H. reflexivity. Qed.

Lemma tag_app s r : tag s (s ++ r) = POk tt r.
Proof. induction s as [|c s IH]; cbn; [reflexivity|]. rewrite N.eqb_refl. exact IH. Qed.
Lemma tag_cases s i : tag s i = PBack \/ exists r, tag s i = POk tt r.
Proof.
  revert i. induction s as [|c s IH]; intros i; cbn; [eauto|].
  destruct i as [|x i]; [auto|]. destruct (x =? c); auto.
Qed.
Lemma tag_miss c s x r : x <> c -> tag (c :: s) (x :: r) = PBack.
Proof. intros H. cbn [tag]. apply N.eqb_neq in H. rewrite H. reflexivity. Qed.
Lemma char_hit c r : char c (c :: r) = POk tt r.
Proof. cbn. rewrite N.eqb_refl. reflexivity. Qed.
Lemma char_miss c x r : x <> c -> char c (x :: r) = PBack.
Proof. intros H. cbn. apply N.eqb_neq in H. rewrite H. reflexivity. Qed.
Lemma take_ok m f a r : forallb f a = true -> hn f r -> (m <= length a)%nat -> take_while m f (a ++ r) = POk a r.
Proof.
  intros Ha Hr Hm. unfold take_while. rewrite (span_app f a r Ha Hr).
  destruct (length a <? m)%nat eqn:E; [apply Nat.ltb_lt in E; lia|reflexivity].
Qed.
Lemma space0_ok a r : forallb is_space a = true -> hn is_space r -> space0 (a ++ r) = POk tt r.
Proof. intros Ha Hr. unfold space0. apply (map_ok _ _ _ a). apply take_ok; [exact Ha|exact Hr|lia]. Qed.
Lemma space0_none r : hn is_space r -> space0 r = POk tt r.
Proof. intros H. apply (space0_ok [] r); [reflexivity|exact H]. Qed.
Lemma space1_ok a r : forallb is_space a = true -> hn is_space r -> (1 <= length a)%nat -> space1 (a ++ r) = POk tt r.
Proof. intros Ha Hr Hl. unfold space1. apply (map_ok _ _ _ a). apply take_ok; assumption. Qed.
Lemma ws_ok {A} (p : parser A) a r : sp a -> hn is_mspace r -> ws p (a ++ r) = p r.
Proof.
  intros Ha Hr. unfold ws. rewrite (bind_ok _ _ _ tt r); [reflexivity|].
  unfold multispace0. apply (map_ok _ _ _ a). apply take_ok; [exact Ha|exact Hr|lia].
Qed.
Lemma ws_none {A} (p : parser A) r : hn is_mspace r -> ws p r = p r.
Proof. intros H. apply (ws_ok p [] r); [reflexivity|exact H]. Qed.
Lemma mspace_space r : hn is_mspace r -> hn is_space r.
Proof.
  destruct r as [|c r]; cbn; [auto|]. unfold is_mspace, is_space. intros H.
  apply orb_false_iff in H as [H _]. apply orb_false_iff in H as [H _]. exact H.
Qed.

(** Names. *)
Ltac clsg := cbn beta in *; unfold lower_tail, is_alnum in *; unfold is_lower, is_upper, is_digit, lower, upper, digit, underscore in *; lia.
Lemma ident_ok (f g : N -> bool) (first more : N -> Prop) s r :
  named first more s -> (forall c, first c -> f c = true) -> (forall c, more c -> g c = true) -> hn g r ->
  ident f g (s ++ r) = POk s r.
Proof.
  intros (c & t & -> & Hc & Ht) Hf Hg Hr. unfold ident. cbn [app].
  rewrite (bind_ok _ _ _ c (t ++ r)) by (cbn; rewrite Hf by exact Hc; reflexivity).
  rewrite (bind_ok _ _ _ t r); [reflexivity|]. apply take_ok; [|exact Hr|lia].
  apply forallb_forall. intros x Hx. apply Hg. rewrite Forall_forall in Ht. auto.
Qed.
Lemma type_name_ok s r : TypeName s -> hn is_alnum r -> type_name (s ++ r) = POk s r.
Proof. intros H Hr. apply (ident_ok _ _ _ _ s r H); [| |exact Hr]; intros c Hc; clsg. Qed.
Lemma lower_name_ok s r : LowerName s -> hn lower_tail r -> lower_name (s ++ r) = POk s r.
Proof. intros H Hr. apply (ident_ok _ _ _ _ s r H); [| |exact Hr]; intros c Hc; clsg. Qed.
Definition const_char (c : N) : bool := is_upper c || is_digit c || (c =? 95).
Lemma const_name_ok s r : ConstName s -> hn const_char r -> const_name (s ++ r) = POk s r.
Proof. intros H Hr. apply (ident_ok _ _ _ _ s r H); [| |exact Hr]; intros c Hc; clsg. Qed.
Definition ref_char (c : N) : bool := is_lower c || is_upper c || is_digit c || (c =? 95).
Lemma external_name_ok s r : RefName s -> hn ref_char r -> external_name (s ++ r) = POk s r.
Proof. intros H Hr. apply (ident_ok _ _ _ _ s r H); [| |exact Hr]; intros c Hc; clsg. Qed.

(** Decimal numbers. *)
Lemma dec_value_app a b : dec_value (a ++ b) = fold_left (fun a c => a * 10 + (c - 48)) b (dec_value a).
Proof. unfold dec_value. apply fold_left_app. Qed.
Lemma dec_aux_spec fuel : forall n acc, n < 10 ^ N.of_nat fuel -> (0 < fuel)%nat ->
  exists ds, dec_aux fuel n acc = ds ++ acc /\ Forall digit ds /\ dec_value ds = n
    /\ match ds with c :: r => (n = 0 /\ c = 48 /\ r = []) \/ (n <> 0 /\ 49 <= c <= 57) | [] => False end.
Proof.
  induction fuel as [|fuel IH]; intros n acc Hn Hf; [lia|]. cbn [dec_aux].
  destruct (n <? 10) eqn:E.
  - apply N.ltb_lt in E. exists [48 + n mod 10]. rewrite N.mod_small by lia.
    split; [reflexivity|]. split; [constructor; [unfold digit; lia|constructor]|].
    split; [unfold dec_value; cbn [fold_left]; lia|]. destruct (N.eq_dec n 0) as [->|]; [left; auto|right; lia].
  - apply N.ltb_ge in E.
    assert (Hq : n / 10 < 10 ^ N.of_nat fuel).
    { apply N.div_lt_upper_bound; [lia|]. replace (N.of_nat (S fuel)) with (N.succ (N.of_nat fuel)) in Hn by lia.
      rewrite N.pow_succ_r' in Hn. exact Hn. }
    assert (Hq0 : n / 10 <> 0). { intros H0. apply N.div_small_iff in H0; lia. }
    assert (Hf' : (0 < fuel)%nat).
    { destruct fuel; [|lia]. cbn in Hq. lia. }
    destruct (IH (n / 10) ((48 + n mod 10) :: acc) Hq Hf') as (ds & -> & Hd & Hv & Hh).
    exists (ds ++ [48 + n mod 10]). split; [rewrite <- app_assoc; reflexivity|].
    pose proof (N.mod_lt n 10 ltac:(lia)) as Hm. pose proof (N.div_mod' n 10) as Hdm.
    split; [apply Forall_app; split; [exact Hd|constructor; [unfold digit; lia|constructor]]|].
    split; [rewrite dec_value_app, Hv; cbn [fold_left]; lia|].
    destruct ds as [|c r]; [contradiction|]. cbn [app]. right. destruct Hh as [(H0 & _)|(_ & Hc)]; [contradiction|]. lia.
Qed.
Lemma dec_str_spec n : exists c r, dec_str n = c :: r /\ Forall digit (c :: r) /\ dec_value (c :: r) = n
  /\ ((n = 0 /\ c = 48 /\ r = []) \/ (n <> 0 /\ 49 <= c <= 57)).
Proof.
  unfold dec_str. destruct (dec_aux_spec (S (N.to_nat (N.log2 n))) n []) as (ds & -> & Hd & Hv & Hh); [|lia|].
  - destruct (N.eq_dec n 0) as [->|Hn]; [reflexivity|].
    pose proof (N.log2_spec n ltac:(lia)) as [_ H].
    replace (N.of_nat (S (N.to_nat (N.log2 n)))) with (N.succ (N.log2 n)) by lia.
    eapply N.lt_le_trans; [exact H|]. apply N.pow_le_mono_l. lia.
  - rewrite app_nil_r in *. destruct ds as [|c r]; [contradiction|]. exists c, r. auto.
Qed.
Lemma digits_b l : Forall digit l -> forallb is_digit l = true.
Proof.
  intros H. apply forallb_forall. intros x Hx. rewrite Forall_forall in H. specialize (H x Hx). clsg.
Qed.
Lemma dec_uint_ok max n r : n <= max -> hn is_digit r -> dec_uint max (dec_str n ++ r) = POk n r.
Proof.
  intros Hn Hr. destruct (dec_str_spec n) as (c & d & -> & Hd & Hv & [(-> & -> & ->)|(Hn0 & Hc)]).
  - reflexivity.
  - cbn [app dec_uint]. assert ((49 <=? c) && (c <=? 57) = true) as -> by clsg.
    inversion Hd; subst. rewrite (span_app is_digit d r); [|apply digits_b; assumption|exact Hr].
    apply N.leb_le in Hn. rewrite Hn. reflexivity.
Qed.
Lemma digits_take n r : hn is_digit r -> take_while 1 is_digit (dec_str n ++ r) = POk (dec_str n) r.
Proof.
  intros Hr. destruct (dec_str_spec n) as (c & d & -> & Hd & _). apply take_ok; [apply digits_b, Hd|exact Hr|cbn; lia].
Qed.

(** * Repetition *)
Inductive chain {A} (p : parser A) : str -> list A -> str -> Prop :=
| chain_nil i : p i = PBack -> chain p i [] i
| chain_cons i a r l r' : p i = POk a r -> (length r < length i)%nat -> chain p r l r' -> chain p i (a :: l) r'.
Lemma repeat_chain {A} (p : parser A) i l r : chain p i l r -> repeat0 p i = POk l r.
Proof.
  intros H. unfold repeat0. assert (Hf : (length i < S (length i))%nat) by lia. revert Hf.
  generalize (S (length i)) as fuel. induction H as [i Hi|i a r l r' Hi Hl Hc IH]; intros fuel Hf;
    (destruct fuel as [|fuel]; [lia|]); cbn [repeat_loop]; rewrite Hi.
  - reflexivity.
  - destruct (length r =? length i)%nat eqn:E; [apply Nat.eqb_eq in E; lia|].
    rewrite IH by lia. reflexivity.
Qed.

Lemma separated_chain {A B} (p : parser A) (sep : parser B) i l r : chain (sep ;; p) i l r ->
  separated_loop (S (length i)) p sep i = POk l r.
Proof.
  intros H. assert (Hf : (length i < S (length i))%nat) by lia. revert Hf.
  generalize (S (length i)) as fuel. induction H as [i Hi|i a r l r' Hi Hl Hc IH]; intros fuel Hf;
    (destruct fuel as [|fuel]; [lia|]); cbn [separated_loop]; rewrite Hi.
  - reflexivity.
  - destruct (length r =? length i)%nat eqn:E; [apply Nat.eqb_eq in E; lia|].
    rewrite IH by lia. reflexivity.
Qed.

(** Elements [pr v], each of which parses behind any white space, joined by ", ". *)
Lemma separated_join {A} (e : parser A) (pr : A -> str) (l : list A) rest :
  l <> [] ->
  (forall v, In v l -> forall s c r, sp s -> (c = 44 \/ c :: r = rest) -> e (s ++ pr v ++ c :: r) = POk v (c :: r)) ->
  (exists c r, rest = c :: r /\ c <> 44 /\ is_mspace c = false) ->
  forall s, sp s -> separated1 e (ws comma) (s ++ join (tx ", ") (map pr l) ++ rest) = POk l rest.
Proof.
  intros Hne He (c & r & Hrest & Hc & Hcm). destruct l as [|v l]; [contradiction|]. clear Hne.
  intros s Hs. unfold separated1.
  assert (Htail : forall l v, (forall v', In v' l -> forall s c r, sp s -> (c = 44 \/ c :: r = rest) ->
            e (s ++ pr v' ++ c :: r) = POk v' (c :: r)) ->
     exists r1, join (tx ", ") (map pr (v :: l)) ++ rest = pr v ++ r1
       /\ (exists c1 r1', r1 = c1 :: r1' /\ (c1 = 44 \/ c1 :: r1' = rest))
       /\ chain (ws comma ;; e) r1 l rest).
  { clear He v l s Hs. induction l as [|v2 l IH]; intros v He.
    - exists rest. cbn [map join]. split; [reflexivity|]. split; [exists c, r; rewrite Hrest; auto|].
      constructor. apply bind_back. rewrite Hrest. rewrite ws_none by (cbn; exact Hcm). apply char_miss, Hc.
    - destruct (IH v2) as (r1 & Hr1 & (c1 & r1' & Hc1 & Hor) & Hch); [intros v' Hv'; apply He; right; exact Hv'|].
      exists (44 :: 32 :: join (tx ", ") (map pr (v2 :: l)) ++ rest).
      split; [cbn [map]; change (join (tx ", ") (pr v :: pr v2 :: map pr l)) with (pr v ++ tx ", " ++ join (tx ", ") (pr v2 :: map pr l));
              rewrite <- !app_assoc; reflexivity|].
      split; [eexists; eexists; split; [reflexivity|left; reflexivity]|].
      rewrite Hr1. apply chain_cons with (r := r1).
      + rewrite (bind_ok _ _ _ tt (32 :: pr v2 ++ r1)) by reflexivity.
        rewrite Hc1. apply (He v2 (or_introl eq_refl) [32]); [reflexivity|exact Hor].
      + cbn [length]. rewrite app_length. lia.
      + exact Hch. }
  destruct (Htail l v) as (r1 & -> & (c1 & r1' & -> & Hor) & Hch); [intros v' Hv'; apply He; right; exact Hv'|].
  rewrite (bind_ok _ _ _ v (c1 :: r1')) by (apply He; [left; reflexivity|exact Hs|exact Hor]).
  rewrite (bind_ok _ _ _ l rest) by (apply separated_chain, Hch). reflexivity.
Qed.

(** Punctuated lists. *)
Lemma removelast_app_one {A} (l : list A) x : removelast (l ++ [x]) = l.
Proof. apply removelast_last. Qed.
Lemma punctuated_print {A} (e : parser A) (pr : A -> str) (sep : str) (init : list A) (vl : A) (trail : bool) (rest : str) :
  sp sep ->
  (forall v, In v init -> forall s r, sp s -> e (s ++ pr v ++ 44 :: r) = POk v (44 :: r)) ->
  (forall s, sp s -> e (s ++ pr vl ++ (if trail then [44] else []) ++ rest) = POk vl ((if trail then [44] else []) ++ rest)) ->
  (trail = true -> e rest = PBack) -> ws comma rest = PBack ->
  forall s, sp s ->
  punctuated e (s ++ concat (map (fun v => pr v ++ [44] ++ sep) init) ++ pr vl ++ (if trail then [44] else []) ++ rest)
  = POk (Punct init vl trail) rest.
Proof.
  intros Hsep Hinit Hlast Hback Hws s Hs. unfold punctuated, punctuate.
  set (f := pdo a <- e; ws comma ;; pret a).
  set (g := pdo a <- e; pdo t <- opt (ws comma); pret (a, match t with Some _ => true | None => false end)).
  set (body := fun i => concat (map (fun v => pr v ++ [44] ++ sep) i) ++ pr vl ++ (if trail then [44] else []) ++ rest).
  assert (H : forall i s acc prev fuel, sp s -> (forall v, In v i -> In v init) ->
     (length (s ++ body i) < fuel)%nat ->
     punct_loop fuel f g acc prev (s ++ body i) = POk (Punct (acc ++ i) vl trail) rest).
  { induction i as [|v i IH]; intros s0 acc prev fuel Hs0 Hin Hfu; (destruct fuel as [|fuel]; [lia|]).
    - cbn [punct_loop]. unfold body in *. cbn [map concat] in *. cbn [app] in Hfu |- *. rewrite app_nil_r.
      specialize (Hlast s0 Hs0). destruct trail.
      + cbn [app] in *.
        assert (Hf : f (s0 ++ pr vl ++ 44 :: rest) = POk vl rest).
        { unfold f. rewrite (bind_ok _ _ _ _ _ Hlast). rewrite (bind_ok _ _ _ tt rest); [reflexivity|].
          rewrite ws_none by reflexivity. apply char_hit. }
        rewrite Hf. rewrite !app_length in *. cbn [length] in *.
        destruct (length rest =? _)%nat eqn:E; [apply Nat.eqb_eq in E; lia|].
        destruct fuel as [|fuel]; [lia|]. cbn [punct_loop].
        assert (Hf0 : f rest = PBack) by (apply bind_back, Hback; reflexivity).
        assert (Hg0 : g rest = PBack) by (apply bind_back, Hback; reflexivity).
        rewrite Hf0, Hg0.
        assert (Hg : g (s0 ++ pr vl ++ 44 :: rest) = POk (vl, true) rest).
        { unfold g. rewrite (bind_ok _ _ _ _ _ Hlast). rewrite (bind_ok _ _ _ (Some tt) rest); [reflexivity|].
          apply opt_ok. rewrite ws_none by reflexivity. apply char_hit. }
        rewrite Hg. rewrite removelast_app_one. reflexivity.
      + cbn [app] in *. unfold f at 1. rewrite (bind_ok _ _ _ _ _ Hlast), (bind_back _ _ _ Hws).
        unfold g at 1. rewrite (bind_ok _ _ _ _ _ Hlast), (bind_ok _ _ _ _ _ (opt_back _ _ Hws)). reflexivity.
    - cbn [punct_loop].
      assert (Hb : body (v :: i) = pr v ++ 44 :: sep ++ body i).
      { unfold body. cbn [map concat]. rewrite <- !app_assoc. reflexivity. }
      rewrite Hb in *.
      assert (Hf : f (s0 ++ pr v ++ 44 :: sep ++ body i) = POk v (sep ++ body i)).
      { unfold f. rewrite (bind_ok _ _ _ v (44 :: sep ++ body i)) by (apply Hinit; [apply Hin; left; reflexivity|exact Hs0]).
        rewrite (bind_ok _ _ _ tt (sep ++ body i)); [reflexivity|]. rewrite ws_none by reflexivity. apply char_hit. }
      rewrite Hf. rewrite !app_length in *. cbn [length] in *. rewrite !app_length in *.
      destruct (length sep + length (body i) =? _)%nat eqn:E; [apply Nat.eqb_eq in E; lia|].
      rewrite IH; [rewrite <- app_assoc; reflexivity|exact Hsep|intros v' Hv'; apply Hin; right; exact Hv'|rewrite app_length; lia]. }
  apply (H init s [] None _ Hs (fun v Hv => Hv)). apply Nat.lt_succ_diag_r.
Qed.

(** A whole surrounded list. *)
Lemma surround_print {A} (e : parser A) (pr : A -> str) o c level newline (p : punct A) r :
  is_mspace c = false -> c <> 44 -> newline = true \/ level = O ->
  (forall v, In v (p_values p) -> forall s x y, sp s -> (x = 44 \/ x = c \/ (newline = true /\ x = 10)) ->
     e (s ++ pr v ++ x :: y) = POk v (x :: y)) ->
  (forall s, sp s -> e (s ++ c :: r) = PBack) ->
  surround o c (punctuated e) (pr_surround o c pr level newline p ++ r) = POk p r.
Proof.
  intros Hcm Hc Hnv He Hback. destruct p as [init vl trail]. unfold pr_surround. cbn [p_init p_last p_trail].
  unfold surround. cbn [app]. rewrite (bind_ok _ _ _ tt _ (char_hit _ _)).
  apply cut_ok.
  set (nl := if newline then [10] else []).
  assert (Hnl : sp nl) by (unfold nl; destruct newline; reflexivity).
  erewrite bind_ok.
  2:{ rewrite <- !app_assoc. apply (punctuated_print e pr (if newline then [10] else [32]) init vl trail (nl ++ indent level ++ [c] ++ r)).
      - destruct newline; reflexivity.
      - intros v Hv s y Hs. apply He; [unfold p_values; cbn; apply in_or_app; left; exact Hv|exact Hs|auto].
      - intros s Hs. assert (Hin : In vl (p_values (Punct init vl trail))) by (unfold p_values; cbn; apply in_or_app; right; left; reflexivity).
        destruct trail; [apply He; auto|]. cbn [app] in *. destruct newline.
        + apply He; auto.
        + unfold nl in *. cbn [app] in *. destruct Hnv as [Hnv| ->]; [discriminate|]. apply He; auto.
      - intros _. rewrite app_assoc. apply Hback. apply sp_app; [exact Hnl|apply sp_indent].
      - rewrite app_assoc. cbn [app]. rewrite ws_ok; [apply char_miss, Hc|apply sp_app; [exact Hnl|apply sp_indent]|exact Hcm].
      - exact Hnl. }
  cbv beta. rewrite app_assoc. cbn [app].
  rewrite (bind_ok _ _ _ tt r); [reflexivity|]. rewrite ws_ok; [apply char_hit|apply sp_app; [exact Hnl|apply sp_indent]|exact Hcm].
Qed.

(** * Types *)
Definition tstop (c : N) : bool := ref_char c || (c =? 38) || (c =? 60).
Lemma hn_impl (f g : N -> bool) r : (forall c, g c = true -> f c = true) -> hn f r -> hn g r.
Proof.
  intros H. destruct r as [|c r]; cbn; [auto|]. intros Hf. destruct (g c) eqn:E; [|reflexivity].
  rewrite (H c E) in Hf. discriminate.
Qed.
Lemma surround_ok {A} o c (p : parser A) X a rest : p X = POk a (c :: rest) -> is_mspace c = false ->
  surround o c p (o :: X) = POk a rest.
Proof.
  intros H Hc. unfold surround. rewrite (bind_ok _ _ _ tt X (char_hit _ _)). apply cut_ok.
  rewrite (bind_ok _ _ _ _ _ H). rewrite (bind_ok _ _ _ tt rest); [reflexivity|].
  rewrite ws_none by exact Hc. apply char_hit.
Qed.
Lemma in_surround_len {A} o c (pr : A -> str) level nl p v : In v (p_values p) ->
  (length (pr v) + 2 <= length (pr_surround o c pr level nl p))%nat.
Proof.
  destruct p as [init x b]. unfold p_values, pr_surround. cbn [p_init p_last p_trail].
  rewrite !app_length. cbn [length]. intros H. apply in_app_or in H as [H|[->|[]]]; [|lia].
  induction init as [|y init IH]; [destruct H|]. cbn [map concat]. rewrite !app_length. cbn [length].
  destruct H as [->|H]; [lia|]. specialize (IH H). lia.
Qed.

Definition tstart (c : N) : Prop := lower c \/ upper c \/ c = 38 \/ c = 40 \/ c = 91.
Lemma tstart_ms c : tstart c -> is_mspace c = false.
Proof. unfold tstart, lower, upper, is_mspace. lia. Qed.
Lemma named_head f g s : named f g s -> exists c r, s = c :: r /\ f c.
Proof. intros (c & r & -> & Hc & _). eauto. Qed.
Lemma type_head t : TypeOk t -> exists c r, pr_type t = c :: r /\ tstart c.
Proof.
  unfold tstart, lower, upper. destruct t as [p|t|k v|t|t|t|[l x b]|t n|path name gs]; intros H.
  - destruct p; eexists; eexists; (split; [reflexivity|cbn; lia]).
  - eexists; eexists; split; [reflexivity|cbn; lia].
  - eexists; eexists; split; [reflexivity|cbn; lia].
  - eexists; eexists; split; [reflexivity|cbn; lia].
  - eexists; eexists; split; [reflexivity|cbn; lia].
  - eexists; eexists; split; [reflexivity|cbn; lia].
  - eexists; eexists; split; [reflexivity|cbn; lia].
  - eexists; eexists; split; [reflexivity|cbn; lia].
  - cbn [TypeOk] in H. destruct H as (Hp & Hn & _). destruct path as [|s path]; cbn [pr_type map concat app].
    + apply named_head in Hn as (c & r & -> & Hc). cbn [app]. eexists; eexists; split; [reflexivity|unfold upper in Hc; lia].
    + inversion Hp as [|? ? Hs]; subst. apply named_head in Hs as (c & r & -> & Hc). cbn [app].
      eexists; eexists; split; [reflexivity|unfold lower in Hc; lia].
Qed.
Lemma type_head_ms t r : TypeOk t -> hn is_mspace (pr_type t ++ r).
Proof. intros H. destruct (type_head t H) as (c & s & -> & Hc). cbn. apply tstart_ms, Hc. Qed.

Lemma basic_ok a r p : forallb basic_char a = true -> (2 <= length a)%nat -> hn basic_char r ->
  basic_keyword a = Some p -> parse_basic (a ++ r) = POk (PPrim p) r.
Proof.
  intros Ha Hl Hr Hk. unfold parse_basic. apply alt_ok.
  rewrite (bind_ok _ _ _ a r) by (apply take_ok; assumption). rewrite Hk. reflexivity.
Qed.
Lemma prim_print p rest : hn tstop rest -> parse_basic (pr_prim p ++ rest) = POk (PPrim p) rest.
Proof.
  intros H. assert (Hb : hn basic_char rest).
  { revert H. apply hn_impl. intros c. unfold basic_char, tstop, ref_char. lia. }
  destruct p; try (apply basic_ok; [reflexivity|cbn; lia|exact Hb|reflexivity]); reflexivity.
Qed.

(** A path segment that is not shadowed is not taken for a built-in type. *)
Lemma keyword_words a p : basic_keyword a = Some p -> In a basic_words \/ In 38 a.
Proof.
  unfold basic_keyword. intros H.
  repeat (match type of H with (if str_eqb a ?w then _ else _) = _ => destruct (str_eqb a w) eqn:?E end;
    [match goal with E : str_eqb a _ = true |- _ => apply str_eqb_eq in E; subst a end; first [left; cbn; tauto|right; cbn; tauto]|]).
  discriminate.
Qed.
Lemma lower_chars s : LowerName s -> Forall (fun c => lower c \/ digit c \/ underscore c) s.
Proof. intros (c & r & -> & Hc & Hr). constructor; [left; exact Hc|exact Hr]. Qed.
Lemma path_basic s i : LowerName s -> ~ Shadowed s -> parse_basic (s ++ 58 :: 58 :: i) = PBack.
Proof.
  intros Hs Hn. pose proof (lower_chars s Hs) as Hch. rewrite Forall_forall in Hch.
  assert (Hbox : forall w, alt (tag (tx "box<string>") ;; pret (PPrim PrBoxString)) (tag (tx "box<bytes>") ;; pret (PPrim PrBoxBytes)) (s ++ 58 :: w) = PBack).
  { intros w.
    assert (H0 : forall x y, In 60 x -> (forall c, In c x -> c <> 58) -> tag (x ++ y) (s ++ 58 :: w) = PBack).
    { clear -Hch. intros x y. revert s Hch. induction x as [|a x IH]; intros s Hch Hin Hnc; [destruct Hin|].
      destruct s as [|b s]; cbn [app tag].
      - destruct (58 =? a) eqn:E; [|reflexivity]. apply N.eqb_eq in E. exfalso. apply (Hnc a); [left; reflexivity|auto].
      - destruct (b =? a) eqn:E; [|reflexivity]. apply N.eqb_eq in E as ->.
        apply IH; [intros c Hc; apply Hch; right; exact Hc| |intros c Hc; apply Hnc; right; exact Hc].
        destruct Hin as [->|Hin]; [|exact Hin]. exfalso. specialize (Hch 60 (or_introl eq_refl)). clsg. }
    rewrite alt_back; apply bind_back.
    - exact (H0 (tx "box<") (tx "bytes>") ltac:(cbn; tauto) ltac:(cbn; intros c; lia)).
    - exact (H0 (tx "box<") (tx "string>") ltac:(cbn; tauto) ltac:(cbn; intros c; lia)). }
  unfold parse_basic. rewrite alt_back; [apply Hbox|].
  destruct (span_split basic_char s) as (a & r & Hsp & Hsr & Ha & Hr).
  assert (Hrr : hn basic_char (r ++ 58 :: 58 :: i)) by (destruct r as [|c r]; [reflexivity|exact Hr]).
  unfold pbind at 1, take_while. rewrite Hsr, <- app_assoc, (span_app _ _ _ Ha Hrr).
  destruct (length a <? 2)%nat; [reflexivity|].
  destruct (basic_keyword a) as [p|] eqn:Ek; [|reflexivity]. exfalso. apply Hn.
  apply keyword_words in Ek as [Hin|Hin].
  - exists a, r. split; [exact Hsr|]. left. split; [exact Hin|]. destruct r as [|c r]; [left; reflexivity|right].
    exists c, r. split; [reflexivity|]. specialize (Hch c). rewrite Hsr in Hch.
    specialize (Hch ltac:(apply in_or_app; right; left; reflexivity)). cbn in Hr. unfold basic_char in Hr. clsg.
  - specialize (Hch 38). rewrite Hsr in Hch. specialize (Hch ltac:(apply in_or_app; left; exact Hin)). clsg.
Qed.
Lemma path_generic p s i : LowerName s -> ~ Shadowed s -> parse_generic p (s ++ 58 :: 58 :: i) = PBack.
Proof.
  intros Hs Hn. pose proof (lower_chars s Hs) as Hch. rewrite Forall_forall in Hch.
  destruct (span_split generic_char s) as (a & r & Hsp & Hsr & Ha & Hr).
  assert (Hrr : hn generic_char (r ++ 58 :: 58 :: i)) by (destruct r as [|c r]; [reflexivity|exact Hr]).
  unfold parse_generic, pbind at 1, take_while. rewrite Hsr, <- app_assoc, (span_app _ _ _ Ha Hrr).
  destruct (length a <? 3)%nat; [reflexivity|].
  assert (Hw : ~ In a generic_words).
  { intros Hin. apply Hn. exists a, r. split; [exact Hsr|]. right. split; [exact Hin|].
    destruct r as [|c r]; [left; reflexivity|right]. exists c, r. split; [reflexivity|].
    specialize (Hch c). rewrite Hsr in Hch. specialize (Hch ltac:(apply in_or_app; right; left; reflexivity)).
    cbn in Hr. unfold generic_char in Hr. clsg. }
  repeat match goal with |- (if str_eqb a ?w then _ else _) _ = _ =>
    let E := fresh in destruct (str_eqb a w) eqn:E; [exfalso; apply Hw; apply str_eqb_eq in E; subst a; cbn; tauto|] end.
  reflexivity.
Qed.

(** The path of a type reference. *)
Definition seg : parser str := pdo s <- lower_name; tag (tx "::") ;; pret s.
Lemma seg_ok s r : LowerName s -> seg (s ++ 58 :: 58 :: r) = POk s r.
Proof. intros H. unfold seg. rewrite (bind_ok _ _ _ s (58 :: 58 :: r)) by (apply lower_name_ok; [exact H|reflexivity]). reflexivity. Qed.
Lemma seg_upper c r : upper c -> seg (c :: r) = PBack.
Proof.
  intros H. unfold seg. apply bind_back. unfold lower_name, ident. apply bind_back. cbn.
  assert (is_lower c = false) as -> by clsg. reflexivity.
Qed.
Lemma path_chain path c r : Forall LowerName path -> upper c ->
  chain seg (concat (map (fun s => s ++ tx "::") path) ++ c :: r) path (c :: r).
Proof.
  intros Hp Hc. induction Hp as [|s path Hs Hp IH]; [constructor; apply seg_upper, Hc|].
  cbn [map concat]. rewrite <- !app_assoc. apply chain_cons with (r := concat (map (fun s => s ++ tx "::") path) ++ c :: r).
  - apply seg_ok, Hs.
  - rewrite !app_length. cbn. lia.
  - exact IH.
Qed.
Lemma path_ok path c r : Forall LowerName path -> upper c ->
  opt (repeat1 seg) (concat (map (fun s => s ++ tx "::") path) ++ c :: r)
  = POk (match path with [] => None | _ => Some path end) (c :: r).
Proof.
  intros Hp Hc. pose proof (path_chain path c r Hp Hc) as H. inversion H as [i Hi|i a r0 l r' Hi Hl Hch]; subst.
  - apply opt_back. unfold repeat1. apply bind_back. exact Hi.
  - apply opt_ok. unfold repeat1. rewrite (bind_ok _ _ _ _ _ Hi).
    rewrite (bind_ok _ _ _ l (c :: r)); [reflexivity|]. apply repeat_chain, Hch.
Qed.

Lemma close_type n c r : (c = 41 \/ c = 62) -> parse_type (S n) (c :: r) = PBack.
Proof. intros [->| ->]; reflexivity. Qed.

Lemma fold_forall {A} (P : A -> Prop) l x : fold_right (fun t Q => P t /\ Q) True l /\ P x -> forall v, In v (l ++ [x]) -> P v.
Proof.
  intros [Hl Hx] v H. apply in_app_or in H as [H|[->|[]]]; [|exact Hx].
  induction l as [|a l IH]; [destruct H|]. destruct Hl as [Ha Hl]. destruct H as [->|H]; auto.
Qed.

Lemma types_print n o c (p : punct pty) r :
  (forall t rest, (length (pr_type t) <= n)%nat -> TypeOk t -> NoShadow t -> hn tstop rest ->
     parse_type n (pr_type t ++ rest) = POk t rest) ->
  (c = 41 \/ c = 62) ->
  (length (pr_surround o c pr_type 0 false p) <= S n)%nat ->
  (forall v, In v (p_values p) -> TypeOk v) -> (forall v, In v (p_values p) -> NoShadow v) ->
  surround o c (punctuated (ws (parse_type n))) (pr_surround o c pr_type 0 false p ++ r) = POk p r.
Proof.
  intros IH Hc Hl Hok Hns. apply surround_print.
  - destruct Hc as [->| ->]; reflexivity.
  - destruct Hc as [->| ->]; discriminate.
  - right; reflexivity.
  - intros v Hv s x y Hs Hx. rewrite ws_ok; [|exact Hs|apply type_head_ms, Hok, Hv].
    pose proof (in_surround_len o c pr_type 0 false p v Hv). apply IH; [lia|auto|auto|].
    cbn. destruct Hx as [->|[->|[H0 _]]]; [reflexivity|destruct Hc as [->| ->]; reflexivity|discriminate].
  - intros s Hs. rewrite ws_ok; [|exact Hs|destruct Hc as [->| ->]; reflexivity].
    pose proof (in_surround_len o c pr_type 0 false p (p_last p) ltac:(unfold p_values; apply in_or_app; right; left; reflexivity)) as H1.
    assert (Hin : In (p_last p) (p_values p)) by (unfold p_values; apply in_or_app; right; left; reflexivity).
    destruct (type_head _ (Hok _ Hin)) as (c0 & r0 & Hh & _). rewrite Hh in H1. cbn [length] in H1.
    destruct n as [|n]; [lia|]. apply close_type, Hc.
Qed.

Lemma type_print n : forall t rest, (length (pr_type t) <= n)%nat -> TypeOk t -> NoShadow t -> hn tstop rest ->
  parse_type n (pr_type t ++ rest) = POk t rest.
Proof.
  induction n as [|n IH]; intros t rest Hl Hok Hns Hr.
  { destruct (type_head t Hok) as (c & r & E & _). rewrite E in Hl. cbn in Hl. lia. }
  cbn [parse_type].
  assert (Single : forall kw mk u, (forall X, parse_basic (kw ++ 60 :: X) = PBack) ->
     (forall p X, parse_generic p (kw ++ 60 :: X) = parse_single mk p (60 :: X)) ->
     (length (kw ++ 60%N :: pr_type u ++ [62%N]) <= S n)%nat -> TypeOk u -> NoShadow u ->
     alt parse_basic (alt (parse_generic (parse_type n)) (alt (parse_tuple (parse_type n)) (alt (parse_array (parse_type n))
        (parse_external (parse_type n))))) (kw ++ 60 :: (pr_type u ++ [62]) ++ rest) = POk (mk u) rest).
  { intros kw mk u Hb Hg Hlen Hu Hnu. rewrite alt_back by apply Hb. apply alt_ok. rewrite Hg.
    unfold parse_single. apply cut_ok, map_ok. apply surround_ok; [|reflexivity].
    rewrite app_length in Hlen. cbn [length] in Hlen. rewrite app_length in Hlen. cbn [length] in Hlen.
    rewrite <- app_assoc. apply IH; [lia|exact Hu|exact Hnu|reflexivity]. }
  destruct t as [p|t|k v|t|t|t|[l x b]|t m|path name gs].
  - apply alt_ok. apply prim_print, Hr.
  - apply (Single (tx "vec") PVec t); [reflexivity|reflexivity|exact Hl|exact Hok|exact Hns].
  - cbn [pr_type TypeOk NoShadow] in *. destruct Hok as [Hk Hv]. destruct Hns as [Hnk Hnv].
    rewrite alt_back by reflexivity. apply alt_ok.
    change (parse_generic (parse_type n) ((tx "hash_map<" ++ pr_type k ++ tx ", " ++ pr_type v ++ tx ">") ++ rest))
      with (parse_pair (parse_type n) (60 :: (pr_type k ++ tx ", " ++ pr_type v ++ tx ">") ++ rest)).
    unfold parse_pair. apply cut_ok. rewrite !app_length in Hl. cbn in Hl.
    apply surround_ok; [|reflexivity]. rewrite <- !app_assoc.
    rewrite (bind_ok _ _ _ k (tx ", " ++ pr_type v ++ tx ">" ++ rest)) by (apply IH; [lia|exact Hk|exact Hnk|reflexivity]).
    rewrite (bind_ok _ _ _ tt (tx ", " ++ pr_type v ++ tx ">" ++ rest)) by (apply space0_none; reflexivity).
    rewrite (bind_ok _ _ _ tt (tx " " ++ pr_type v ++ tx ">" ++ rest)) by reflexivity.
    rewrite (bind_ok _ _ _ tt (pr_type v ++ tx ">" ++ rest)) by (apply (space0_ok (tx " ")); [reflexivity|apply mspace_space, type_head_ms, Hv]).
    rewrite (bind_ok _ _ _ v (tx ">" ++ rest)) by (apply IH; [lia|exact Hv|exact Hnv|reflexivity]). reflexivity.
  - apply (Single (tx "hash_set") PHashSet t); [reflexivity|reflexivity|exact Hl|exact Hok|exact Hns].
  - apply (Single (tx "option") POption t); [reflexivity|reflexivity|exact Hl|exact Hok|exact Hns].
  - apply (Single (tx "non_zero") PNonZero t); [reflexivity|reflexivity|exact Hl|exact Hok|exact Hns].
  - rewrite alt_back by reflexivity. rewrite alt_back by reflexivity. apply alt_ok. unfold parse_tuple. apply map_ok.
    cbn [TypeOk NoShadow] in *.
    apply (types_print n 40 41 (Punct l x b) rest IH); [left; reflexivity|exact Hl| |]; unfold p_values; cbn [p_init p_last].
    + exact (fold_forall TypeOk l x Hok).
    + exact (fold_forall NoShadow l x Hns).
  - cbn [pr_type TypeOk NoShadow] in *. destruct Hok as [Ht Hm].
    rewrite alt_back by reflexivity. rewrite alt_back by reflexivity. rewrite alt_back by reflexivity. apply alt_ok.
    unfold parse_array. rewrite !app_length in Hl. cbn in Hl.
    change ((tx "[" ++ pr_type t ++ tx "; " ++ dec_str m ++ tx "]") ++ rest) with (91 :: (pr_type t ++ tx "; " ++ dec_str m ++ tx "]") ++ rest).
    apply surround_ok; [|reflexivity]. rewrite <- !app_assoc.
    rewrite (bind_ok _ _ _ t (tx "; " ++ dec_str m ++ tx "]" ++ rest)).
    2:{ rewrite ws_none by (apply type_head_ms, Ht). apply IH; [lia|exact Ht|exact Hns|reflexivity]. }
    rewrite (bind_ok _ _ _ tt (tx " " ++ dec_str m ++ tx "]" ++ rest)) by reflexivity.
    rewrite (bind_ok _ _ _ m (tx "]" ++ rest)); [reflexivity|].
    rewrite ws_ok; [apply dec_uint_ok; [lia|reflexivity]|reflexivity|].
    destruct (dec_str_spec m) as (c & d & -> & Hd & _). inversion Hd; subst. cbn. unfold digit, is_mspace in *. lia.
  - cbn [TypeOk NoShadow] in *. destruct Hok as (Hp & Hname & Hgs). destruct Hns as [Hsh Hngs].
    pose proof Hname as Hname'. destruct Hname' as (c & nr & -> & Hc & Hnr).
    set (G := match gs with Some p => pr_surround 60 62 pr_type 0 false p | None => [] end).
    assert (HG : pr_type (PExternal path (c :: nr) gs) ++ rest
       = concat (map (fun s => s ++ tx "::") path) ++ (c :: nr) ++ G ++ rest).
    { assert (HG0 : pr_type (PExternal path (c :: nr) gs) = concat (map (fun s => s ++ tx "::") path) ++ (c :: nr) ++ G)
        by (destruct gs as [[l x b]|]; reflexivity).
      rewrite HG0, <- !app_assoc. reflexivity. }
    rewrite HG.
    assert (HL : (length G <= S n)%nat).
    { destruct gs as [[l x b]|]; [|cbn; lia]. revert Hl. cbn [pr_type]. rewrite !app_length. cbn [length].
      subst G. unfold pr_surround. cbn [p_init p_last p_trail]. rewrite !app_length. cbn [length indent]. lia. }
    assert (Hb : parse_basic (concat (map (fun s => s ++ tx "::") path) ++ (c :: nr) ++ G ++ rest) = PBack
       /\ parse_generic (parse_type n) (concat (map (fun s => s ++ tx "::") path) ++ (c :: nr) ++ G ++ rest) = PBack
       /\ parse_tuple (parse_type n) (concat (map (fun s => s ++ tx "::") path) ++ (c :: nr) ++ G ++ rest) = PBack
       /\ parse_array (parse_type n) (concat (map (fun s => s ++ tx "::") path) ++ (c :: nr) ++ G ++ rest) = PBack).
    { destruct path as [|s path].
      - cbn [map concat app]. repeat apply conj.
        + unfold parse_basic. rewrite !alt_back; repeat apply bind_back.
          * apply (tag_miss 98 (tx "ox<bytes>")). clsg.
          * apply (tag_miss 98 (tx "ox<string>")). clsg.
          * unfold take_while. cbn [span]. assert (basic_char c = false) as -> by (unfold basic_char; clsg). reflexivity.
        + unfold parse_generic. apply bind_back. unfold take_while. cbn [span].
          assert (generic_char c = false) as -> by (unfold generic_char; clsg). reflexivity.
        + unfold parse_tuple, surround, pmap. apply bind_back, bind_back. apply char_miss. clsg.
        + unfold parse_array, surround. apply bind_back. apply char_miss. clsg.
      - inversion Hp as [|? ? Hs Hp']; subst. cbn [map concat]. rewrite <- !app_assoc. cbn [tx app].
        split; [apply path_basic; assumption|]. split; [apply path_generic; assumption|].
        destruct Hs as (c1 & r1 & -> & Hc1 & _). cbn [app]. split.
        + unfold parse_tuple, surround, pmap. apply bind_back, bind_back. apply char_miss. unfold lower in Hc1. lia.
        + unfold parse_array, surround. apply bind_back. apply char_miss. unfold lower in Hc1. lia. }
    destruct Hb as (H1 & H2 & H3 & H4). rewrite !alt_back by assumption. unfold parse_external.
    erewrite bind_ok by (cbn [app]; apply (path_ok path c (nr ++ G ++ rest) Hp Hc)).
    change (c :: nr ++ G ++ rest) with ((c :: nr) ++ G ++ rest).
    rewrite (bind_ok _ _ _ (c :: nr) (G ++ rest)).
    2:{ apply external_name_ok; [exact Hname|]. subst G. destruct gs as [p|]; [reflexivity|]. cbn [app]. revert Hr. apply hn_impl.
        intros c0. unfold tstop. lia. }
    rewrite (bind_ok _ _ _ gs rest); [destruct path; reflexivity|].
    destruct gs as [[l x b]|].
    + apply opt_ok. apply (types_print n 60 62 (Punct l x b) rest IH); [right; reflexivity|exact HL| |]; unfold p_values; cbn [p_init p_last].
      * exact (fold_forall TypeOk l x Hgs).
      * exact (fold_forall NoShadow l x Hngs).
    + apply opt_back. subst G. cbn [app]. unfold surround. apply bind_back. destruct rest as [|c0 rest]; [reflexivity|].
      cbn in Hr. apply char_miss. unfold tstop in Hr. lia.
Qed.
Lemma ptype_print t rest : TypeOk t -> NoShadow t -> hn tstop rest -> ptype (pr_type t ++ rest) = POk t rest.
Proof. intros. unfold ptype. apply type_print; [rewrite app_length; lia|assumption|assumption|assumption]. Qed.
