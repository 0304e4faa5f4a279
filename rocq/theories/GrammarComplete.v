(** Everything in the grammar is accepted by the parser, with the meaning the grammar gives it. *)
From Verif Require Import Base Syntax Parser Printer ParserSpec ParserTotal ParserRound Grammar GrammarSound.
Require Import ZifyN ZifyBool.
Require Coq.Strings.String.
Import Coq.Strings.String.StringSyntax.
Local Open Scope N_scope.

Lemma white_sp b : White b -> sp b.
Proof. intros H. apply forallb_forall. intros c Hc. apply (proj1 (Forall_forall _ _) H) in Hc. unfold is_mspace. lia. Qed.
Lemma blank_space b : Blank b -> forallb is_space b = true.
Proof. intros H. apply forallb_forall. intros c Hc. apply (proj1 (Forall_forall _ _) H) in Hc. unfold is_space. lia. Qed.
Lemma white_char c r : White (c :: r) -> is_mspace c = true.
Proof. intros H. inversion H; subst. unfold is_mspace. lia. Qed.
(** The text is read and what remains is what follows it, possibly without the blanks at its beginning. *)
Definition done {A} (e : parser A) (i : str) (a : A) (rest : str) : Prop := exists b r, rest = b ++ r /\ Blank b /\ e i = POk a r.
Lemma done_exact {A} (e : parser A) i a rest : e i = POk a rest -> done e i a rest.
Proof. intros H. exists [], rest. split; [reflexivity|]. split; [constructor|exact H]. Qed.
Lemma strip_white b r b' x t : b ++ r = b' ++ x :: t -> Blank b -> is_mspace x = false -> exists b2, r = b2 ++ x :: t /\ b' = b ++ b2.
Proof.
  revert b'. induction b as [|y b IH]; intros b' E Hb Hx; [exists b'; auto|]. inversion Hb; subst. destruct b' as [|z b'].
  - cbn in E. assert (y = x) as -> by congruence. unfold is_mspace in Hx. lia.
  - cbn in E. assert (y = z /\ b ++ r = b' ++ x :: t) as [-> E'] by (split; congruence). destruct (IH _ E') as (b2 & -> & ->); try assumption. exists b2. auto.
Qed.
Lemma white_tail b b2 : White (b ++ b2) -> White b2.
Proof. intros H. apply Forall_app in H as [_ H]. exact H. Qed.

(** * Lists *)
Definition stop (c : N) (rest : str) : Prop := exists b x r, rest = b ++ x :: r /\ White b /\ (x = 44 \/ x = c).
Section Lists.
Context {A : Type} (e : parser A) (E : str -> A -> Prop) (n : nat) (c : N).
Hypothesis Hc : c <> 44.
Hypothesis Hcm : is_mspace c = false.
Hypothesis He : forall s a rest, (length s <= n)%nat -> E s a -> stop c rest -> done e (s ++ rest) a rest.
Hypothesis Hback : forall b r, White b -> e (b ++ c :: r) = PBack.
Notation f := (pdo a <- e; ws comma ;; pret a).
Notation g := (pdo a <- e; pdo t <- opt (ws comma); pret (a, match t with Some _ => true | None => false end)).
Lemma elem_comma s a b r : (length s <= n)%nat -> E s a -> White b -> exists b', White b' /\ e (s ++ b ++ 44 :: r) = POk a (b' ++ 44 :: r).
Proof.
  intros Hl Hs Hb. destruct (He s a (b ++ 44 :: r) Hl Hs) as (b0 & r0 & E0 & Hb0 & H); [exists b, 44, r; auto|].
  symmetry in E0. apply strip_white in E0 as (b2 & -> & ->); [|exact Hb0|reflexivity]. exists b2. split; [exact (white_tail _ _ Hb)|exact H].
Qed.
Lemma elem_close s a b r : (length s <= n)%nat -> E s a -> White b -> exists b0 b', b = b0 ++ b' /\ Blank b0 /\ e (s ++ b ++ c :: r) = POk a (b' ++ c :: r).
Proof.
  intros Hl Hs Hb. destruct (He s a (b ++ c :: r) Hl Hs) as (b0 & r0 & E0 & Hb0 & H); [exists b, c, r; auto|].
  symmetry in E0. apply strip_white in E0 as (b2 & -> & ->); [|exact Hb0|exact Hcm]. exists b0, b2. auto.
Qed.
Lemma f_complete s a b r : (length s <= n)%nat -> E s a -> White b -> f (s ++ b ++ 44 :: r) = POk a r.
Proof.
  intros Hl Hs Hb. destruct (elem_comma s a b r Hl Hs Hb) as (b' & Hb' & H). rewrite (bind_ok _ _ _ _ _ H). rewrite (bind_ok _ _ _ tt r); [reflexivity|].
  rewrite ws_ok; [apply char_hit|apply white_sp, Hb'|reflexivity].
Qed.
Lemma list_complete s p : wlist E s p -> (length s <= n)%nat -> forall b r acc prev fuel, White b -> (length (s ++ b ++ c :: r) < fuel)%nat ->
  done (punct_loop fuel f g acc prev) (s ++ b ++ c :: r) (Punct (acc ++ p_init p) (p_last p) (p_trail p)) (b ++ c :: r).
Proof.
  induction 1 as [s a Hs|s a b' Hs Hb'|s a b' rest l x t Hs Hb' H IH]; intros Hl b r acc prev fuel Hb Hf; (destruct fuel as [|fuel]; [lia|]); cbn [p_init p_last p_trail].
  - destruct (elem_close s a b r Hl Hs Hb) as (b0 & b1 & -> & Hb0 & Ee). exists b0, (b1 ++ c :: r). split; [rewrite <- app_assoc; reflexivity|]. split; [exact Hb0|].
    assert (Hws : ws comma (b1 ++ c :: r) = PBack) by (rewrite ws_ok; [apply char_miss, Hc|apply white_sp; exact (white_tail _ _ Hb)|exact Hcm]).
    cbn [punct_loop]. rewrite (bind_ok _ _ _ _ _ Ee), (bind_back _ _ _ Hws). rewrite (bind_ok _ _ _ _ _ Ee), (bind_ok _ _ _ _ _ (opt_back _ _ Hws)). cbn [pret]. rewrite app_nil_r. reflexivity.
  - apply done_exact. rewrite !app_length in Hl. rewrite <- !app_assoc in *. change (w ",") with [44] in *. cbn [app] in *. cbn [punct_loop].
    rewrite (f_complete s a) by (try assumption; lia).
    assert (En : (length (b ++ c :: r) =? length (s ++ b' ++ 44%N :: b ++ c :: r))%nat = false) by (apply Nat.eqb_neq; repeat (rewrite !app_length; cbn [length]); lia). rewrite En.
    destruct fuel as [|fuel]; [repeat (rewrite !app_length in Hf; cbn [length] in Hf); lia|]. cbn [punct_loop]. assert (Hback' : e (b ++ c :: r) = PBack) by (apply Hback, Hb).
    rewrite (bind_back _ _ _ Hback'), (bind_back _ _ _ Hback'). destruct (elem_comma s a b' (b ++ c :: r)) as (b2 & Hb2 & Ee); [lia|assumption|assumption|].
    rewrite (bind_ok _ _ _ _ _ Ee). rewrite (bind_ok _ _ _ (Some tt) (b ++ c :: r)); [|apply opt_ok; rewrite ws_ok; [apply char_hit|apply white_sp, Hb2|reflexivity]].
    cbn [pret]. rewrite removelast_app_one, app_nil_r. reflexivity.
  - rewrite !app_length in Hl. cbn [length] in Hl. rewrite <- !app_assoc in *. change (w ",") with [44] in *. cbn [app] in *.
    destruct (IH ltac:(lia) b r (acc ++ [a]) (Some (s ++ b' ++ 44 :: rest ++ b ++ c :: r)) fuel Hb) as (b0 & r0 & E0 & Hb0 & H0).
    { repeat (rewrite !app_length in *; cbn [length] in *). lia. }
    exists b0, r0. split; [exact E0|]. split; [exact Hb0|]. cbn [punct_loop]. rewrite (f_complete s a) by (try assumption; lia).
    assert (En : (length (rest ++ b ++ c :: r) =? length (s ++ b' ++ 44%N :: rest ++ b ++ c :: r))%nat = false) by (apply Nat.eqb_neq; repeat (rewrite !app_length; cbn [length]); lia). rewrite En.
    etransitivity; [exact H0|]. cbn [p_init p_last p_trail]. rewrite <- app_assoc. reflexivity.
Qed.
Lemma enclosed_complete o s p r : wenclosed E [o] [c] s p -> (length s <= S n)%nat -> surround o c (punctuated e) (s ++ r) = POk p r.
Proof.
  intros Hen Hl. destruct Hen as [body b p' Hw Hb]. rewrite !app_length in Hl. cbn [length] in Hl. rewrite <- !app_assoc. unfold surround. rewrite (bind_ok _ _ _ tt (body ++ b ++ [c] ++ r)) by apply char_hit.
  apply cut_ok. cbn [app]. unfold punctuated, punctuate.
  destruct (list_complete body p' Hw ltac:(lia) b r [] None (S (length (body ++ b ++ c :: r))) Hb ltac:(lia)) as (b0 & r0 & E0 & Hb0 & H).
  symmetry in E0. apply strip_white in E0 as (b2 & -> & ->); [|exact Hb0|exact Hcm].
  rewrite (bind_ok _ _ _ p' (b2 ++ c :: r)); [|rewrite H; cbn [app]; destruct p'; reflexivity].
  rewrite (bind_ok _ _ _ tt r); [reflexivity|]. rewrite ws_ok; [apply char_hit|apply white_sp; exact (white_tail _ _ Hb)|exact Hcm].
Qed.
End Lists.
Definition heads {A} (E : str -> A -> Prop) : Prop := forall s a, E s a -> exists c t, s = c :: t /\ is_mspace c = false.
Lemma behind_complete {A} (p : parser A) (E : str -> A -> Prop) n c : heads E ->
  (forall s a rest, (length s <= n)%nat -> E s a -> stop c rest -> done p (s ++ rest) a rest) ->
  forall s a rest, (length s <= n)%nat -> behind E s a -> stop c rest -> done (ws p) (s ++ rest) a rest.
Proof.
  intros Hh Hp s a rest Hl Hbh Hst. destruct Hbh as [b s' a' Hb Hs]. rewrite app_length in Hl. destruct (Hp s' a' rest ltac:(lia) Hs Hst) as (b0 & r & -> & Hb0 & H). exists b0, r. split; [reflexivity|]. split; [exact Hb0|].
  rewrite <- app_assoc. rewrite ws_ok; [exact H|apply white_sp, Hb|]. destruct (Hh _ _ Hs) as (x & t & -> & Hx). exact Hx.
Qed.
Lemma stop_hn f c rest : (forall x, f x = true -> is_mspace x = false) -> f 44 = false -> f c = false -> stop c rest -> hn f rest.
Proof.
  intros Hf H44 Hc (b & x & r & -> & Hb & Hx). destruct b as [|y b]; cbn; [destruct Hx as [-> | ->]; assumption|]. apply white_char in Hb. destruct (f y) eqn:E; [|reflexivity]. apply Hf in E. congruence.
Qed.

(** * Types *)
Lemma prim_word_pr p : prim_word p = pr_prim p. Proof. destruct p; reflexivity. Qed.
Lemma wtype_heads : forall s t, wtype s t -> exists c r, s = c :: r /\ tstart c.
Proof.
  assert (H0 : forall c r, tstart c -> exists c' r', c :: r = c' :: r' /\ tstart c') by eauto.
  intros s t H. inversion H; subst.
  1:{ destruct p; apply H0; unfold tstart, lower, upper; cbn; lia. }
  1-5: apply H0; unfold tstart, lower, upper; cbn; lia.
  - match goal with H : wenclosed _ _ _ _ _ |- _ => destruct H end. apply H0; unfold tstart, lower, upper; cbn; lia.
  - apply H0; unfold tstart, lower, upper; cbn; lia.
  - destruct path as [|x path].
    + match goal with H : RefName _ |- _ => destruct H as (c & r & -> & Hc & _) end. apply H0. unfold tstart. auto.
    + match goal with H : Forall LowerName _ |- _ => inversion H as [|? ? Hx]; subst end. destruct Hx as (c & r & -> & Hc & _). apply H0. unfold tstart. auto.
Qed.
Lemma wtype_ms : heads wtype.
Proof. intros s t H. destruct (wtype_heads s t H) as (c & r & -> & Hc). exists c, r. split; [reflexivity|]. apply tstart_ms, Hc. Qed.
Lemma tstop_ms x : tstop x = true -> is_mspace x = false.
Proof. unfold tstop, ref_char, is_lower, is_upper, is_digit, is_mspace. lia. Qed.
Lemma white_stop b r : White b -> hn tstop r -> hn tstop (b ++ r).
Proof. intros Hb Hr. destruct b as [|y b]; [exact Hr|]. apply white_char in Hb. cbn. destruct (tstop y) eqn:E; [|reflexivity]. apply tstop_ms in E. congruence. Qed.
Lemma surround_complete {A} o c (p : parser A) X a b r : p X = POk a (b ++ c :: r) -> White b -> is_mspace c = false -> surround o c p (o :: X) = POk a r.
Proof.
  intros H Hb Hc. unfold surround. rewrite (bind_ok _ _ _ tt X) by apply char_hit. apply cut_ok. rewrite (bind_ok _ _ _ _ _ H). rewrite (bind_ok _ _ _ tt r); [reflexivity|]. rewrite ws_ok; [apply char_hit|apply white_sp, Hb|exact Hc].
Qed.
Lemma space0_complete b r : Blank b -> hn is_space r -> space0 (b ++ r) = POk tt r.
Proof. intros Hb Hr. apply space0_ok; [apply blank_space, Hb|exact Hr]. Qed.
Lemma decimal_complete max d v r : Decimal d v -> v <= max -> hn is_digit r -> dec_uint max (d ++ r) = POk v r.
Proof.
  intros (Hd & Hne & Hz) Hm Hr. apply digits_iff in Hd as [Hd <-]. destruct Hz as [-> | Hz]; [reflexivity|]. destruct d as [|c d]; [contradiction|]. cbn [app dec_uint]. inversion Hd as [|? ? Hc Hd']; subst.
  unfold digit in Hc. assert ((49 <=? c) && (c <=? 57) = true) as -> by lia. rewrite span_app; [|apply digits_b, Hd'|exact Hr]. apply N.leb_le in Hm. rewrite Hm. reflexivity.
Qed.
Lemma decimal_ms d v : Decimal d v -> exists c t, d = c :: t /\ digit c.
Proof. intros (Hd & Hne & _). apply digits_iff in Hd as [Hd _]. destruct d as [|c d]; [contradiction|]. inversion Hd; subst. eauto. Qed.

Lemma types_complete n o c s p r : (forall s t rest, (length s <= n)%nat -> wtype s t -> hn tstop rest -> parse_type n (s ++ rest) = POk t rest) ->
  c = 41 \/ c = 62 -> wenclosed (behind wtype) [o] [c] s p -> (length s <= S n)%nat -> surround o c (punctuated (ws (parse_type n))) (s ++ r) = POk p r.
Proof.
  intros IH Hc Hs Hl. apply (enclosed_complete (ws (parse_type n)) (behind wtype) n c) with (o := o).
  - destruct Hc as [-> | ->]; discriminate.
  - destruct Hc as [-> | ->]; reflexivity.
  - apply behind_complete; [apply wtype_ms|]. intros s' a rest Hl' Hs' Hst. apply done_exact, IH; [exact Hl'|exact Hs'|]. apply (stop_hn _ c); [apply tstop_ms|reflexivity|destruct Hc as [-> | ->]; reflexivity|exact Hst].
  - intros b q Hb. rewrite ws_ok; [|apply white_sp, Hb|destruct Hc as [-> | ->]; reflexivity]. destruct n as [|n]; [|apply close_type, Hc].
    destruct Hs as [body b' p' Hw _]. rewrite !app_length in Hl. cbn in Hl. assert (Hne : (1 <= length body)%nat); [|lia].
    assert (Hel : forall s a, behind wtype s a -> (1 <= length s)%nat) by (intros ? ? [b0 s0 a0 _ H0]; destruct (wtype_heads _ _ H0) as (x & t & -> & _); rewrite app_length; cbn; lia).
    destruct Hw as [s' a Ha|s' a b0 Ha _|s' a b0 rest l x t Ha _ _]; apply Hel in Ha; rewrite ?app_length; lia.
  - exact Hs.
  - exact Hl.
Qed.

Lemma type_complete n : forall s t rest, (length s <= n)%nat -> wtype s t -> hn tstop rest -> parse_type n (s ++ rest) = POk t rest.
Proof.
  induction n as [|n IH]; intros s t rest Hl Hs Hr.
  { destruct (wtype_heads _ _ Hs) as (c & r & -> & _). cbn in Hl. lia. }
  cbn [parse_type].
  assert (Single : forall kw mk s u b, (forall X, parse_basic (kw ++ 60 :: X) = PBack) ->
     (forall p X, parse_generic p (kw ++ 60 :: X) = parse_single mk p (60 :: X)) ->
     (length ((kw ++ [60%N]) ++ s ++ b ++ w ">") <= S n)%nat -> wtype s u -> White b ->
     alt parse_basic (alt (parse_generic (parse_type n)) (alt (parse_tuple (parse_type n)) (alt (parse_array (parse_type n))
        (parse_external (parse_type n))))) (((kw ++ [60]) ++ s ++ b ++ w ">") ++ rest) = POk (mk u) rest).
  { intros kw mk s' u b Hb Hg Hlen Hu Hw. rewrite <- !app_assoc. cbn [app]. rewrite alt_back by apply Hb. apply alt_ok. rewrite Hg.
    unfold parse_single. apply cut_ok, map_ok. rewrite !app_length in Hlen. cbn [length] in Hlen. apply (surround_complete 60 62 _ _ u b); [|exact Hw|reflexivity].
    apply IH; [lia|exact Hu|]. apply white_stop; [exact Hw|reflexivity]. }
  inversion Hs; subst.
  - apply alt_ok. rewrite prim_word_pr. apply prim_print, Hr.
  - apply (Single (tx "vec") PVec); try reflexivity; assumption.
  - apply (Single (tx "hash_set") PHashSet); try reflexivity; assumption.
  - apply (Single (tx "option") POption); try reflexivity; assumption.
  - apply (Single (tx "non_zero") PNonZero); try reflexivity; assumption.
  - rewrite alt_back by reflexivity. apply alt_ok. rewrite <- !app_assoc.
    change (parse_generic (parse_type n) (w "hash_map<" ++ s0 ++ b1 ++ w "," ++ b2 ++ s' ++ b ++ w ">" ++ rest))
      with (parse_pair (parse_type n) (60 :: s0 ++ b1 ++ w "," ++ b2 ++ s' ++ b ++ w ">" ++ rest)).
    unfold parse_pair. apply cut_ok. rewrite !app_length in Hl. cbn in Hl. apply (surround_complete 60 62 _ _ (PHashMap k v) b); [|assumption|reflexivity].
    rewrite (bind_ok _ _ _ k (b1 ++ w "," ++ b2 ++ s' ++ b ++ w ">" ++ rest)) by (apply IH; [lia|assumption|apply white_stop; [apply blank_white; assumption|reflexivity]]).
    rewrite (bind_ok _ _ _ tt (w "," ++ b2 ++ s' ++ b ++ w ">" ++ rest)) by (apply space0_complete; [assumption|reflexivity]).
    rewrite (bind_ok _ _ _ tt (b2 ++ s' ++ b ++ w ">" ++ rest)) by reflexivity.
    rewrite (bind_ok _ _ _ tt (s' ++ b ++ w ">" ++ rest)).
    2:{ apply space0_complete; [assumption|]. destruct (wtype_ms s' v) as (x & t & -> & Hx); [assumption|]. cbn. unfold is_mspace, is_space in *. lia. }
    rewrite (bind_ok _ _ _ v (b ++ w ">" ++ rest)) by (apply IH; [lia|assumption|apply white_stop; [assumption|reflexivity]]). reflexivity.
  - assert (Eo : exists X, s = 40 :: X) by (match goal with H : wenclosed _ _ _ _ _ |- _ => destruct H end; eexists; reflexivity). destruct Eo as [X ->].
    rewrite alt_back by reflexivity. rewrite alt_back by reflexivity. apply alt_ok. unfold parse_tuple. apply map_ok. apply (types_complete n 40 41); auto.
  - rewrite alt_back by reflexivity. rewrite alt_back by reflexivity. rewrite alt_back by reflexivity. apply alt_ok. rewrite !app_length in Hl. cbn in Hl. rewrite <- !app_assoc.
    unfold parse_array. change (w "[" ++ ?X) with (91 :: X).
    apply (surround_complete 91 93 _ _ (PArray t0 n0) b4); [|assumption|reflexivity].
    rewrite (bind_ok _ _ _ t0 (b2 ++ w ";" ++ b3 ++ d ++ b4 ++ w "]" ++ rest)).
    2:{ rewrite ws_ok; [|apply white_sp; assumption|destruct (wtype_ms s0 t0) as (x & t & -> & Hx); [assumption|exact Hx]]. apply IH; [lia|assumption|apply white_stop; [assumption|reflexivity]]. }
    rewrite (bind_ok _ _ _ tt (b3 ++ d ++ b4 ++ w "]" ++ rest)) by (rewrite ws_ok; [apply char_hit|apply white_sp; assumption|reflexivity]).
    rewrite (bind_ok _ _ _ n0 (b4 ++ w "]" ++ rest)); [reflexivity|]. rewrite ws_ok; [|apply white_sp; assumption|].
    + apply decimal_complete; [assumption|lia|]. destruct b4 as [|y b4]; [reflexivity|]. cbn. assert (Hy : is_mspace y = true) by (eapply white_char; eassumption). unfold is_mspace, is_digit in *. lia.
    + destruct (decimal_ms d n0) as (x & t & -> & Hx); [assumption|]. cbn. unfold digit, is_mspace in *. lia.
  - match goal with H : RefName _ |- _ => pose proof H as Hname; destruct H as (c & nr & -> & Hc & Hnr) end. rename s0 into G. rewrite <- !app_assoc.
    change (path_text path) with (concat (map (fun s => s ++ tx "::") path)) in *.
    assert (HG : hn ref_char (G ++ rest)).
    { match goal with H : wopt _ _ _ |- _ => destruct H as [|G p [body b p' _ _]] end; [|reflexivity]. cbn [app]. revert Hr. apply hn_impl. intros x. unfold tstop. lia. }
    assert (HL : (length G <= S n)%nat) by (rewrite !app_length in Hl; lia).
    assert (Hb : parse_basic (concat (map (fun s => s ++ tx "::") path) ++ (c :: nr) ++ G ++ rest) = PBack
       /\ parse_generic (parse_type n) (concat (map (fun s => s ++ tx "::") path) ++ (c :: nr) ++ G ++ rest) = PBack
       /\ parse_tuple (parse_type n) (concat (map (fun s => s ++ tx "::") path) ++ (c :: nr) ++ G ++ rest) = PBack
       /\ parse_array (parse_type n) (concat (map (fun s => s ++ tx "::") path) ++ (c :: nr) ++ G ++ rest) = PBack).
    { destruct path as [|s path].
      - cbn [map concat app]. repeat apply conj.
        + unfold parse_basic. rewrite !alt_back; repeat apply bind_back.
          * apply (tag_miss 98 (tx "ox<bytes>")). clsg.
          * apply (tag_miss 98 (tx "ox<string>")). clsg.
          * unfold take_while. cbn [span]. assert (basic_char c = false) as -> by (unfold basic_char; clsg). reflexivity.
        + unfold parse_generic. apply bind_back. unfold take_while. cbn [span].
          assert (generic_char c = false) as -> by (unfold generic_char; clsg). reflexivity.
        + unfold parse_tuple, surround, pmap. apply bind_back, bind_back. apply char_miss. clsg.
        + unfold parse_array, surround. apply bind_back. apply char_miss. clsg.
      - match goal with H : Forall LowerName (_ :: _) |- _ => inversion H as [|? ? Hs' Hp']; subst end. cbn [map concat]. rewrite <- !app_assoc. cbn [tx app].
        split; [apply path_basic; assumption|]. split; [apply path_generic; assumption|].
        destruct Hs' as (c1 & r1 & -> & Hc1 & _). cbn [app]. split.
        + unfold parse_tuple, surround, pmap. apply bind_back, bind_back. apply char_miss. unfold lower in Hc1. lia.
        + unfold parse_array, surround. apply bind_back. apply char_miss. unfold lower in Hc1. lia. }
    destruct Hb as (Hb1 & Hb2 & Hb3 & Hb4). rewrite !alt_back by assumption. unfold parse_external.
    erewrite bind_ok by (cbn [app]; apply (path_ok path c (nr ++ G ++ rest)); [assumption|exact Hc]).
    change (c :: nr ++ G ++ rest) with ((c :: nr) ++ G ++ rest).
    rewrite (bind_ok _ _ _ (c :: nr) (G ++ rest)) by (apply external_name_ok; assumption).
    rewrite (bind_ok _ _ _ gs rest); [destruct path; reflexivity|].
    match goal with H : wopt _ _ _ |- _ => destruct H as [|G p HGp] end.
    + apply opt_back. cbn [app]. unfold surround. apply bind_back. destruct rest as [|c0 rest]; [reflexivity|]. cbn in Hr. apply char_miss. unfold tstop in Hr. lia.
    + apply opt_ok. apply (types_complete n 60 62); auto.
Qed.
Lemma ptype_complete s t rest : wtype s t -> hn tstop rest -> ptype (s ++ rest) = POk t rest.
Proof. intros. unfold ptype. apply type_complete; [rewrite app_length; lia|assumption|assumption]. Qed.

(** * Blanks, ids, comments *)
Lemma space0_white b x r : White b -> is_mspace x = false ->
  exists b1 b2, b = b1 ++ b2 /\ Blank b1 /\ space0 (b ++ x :: r) = POk tt (b2 ++ x :: r) /\ hn is_space (b2 ++ x :: r).
Proof.
  intros Hb Hx. induction b as [|y b IH].
  - exists [], []. split; [reflexivity|]. split; [constructor|]. assert (hn is_space (x :: r)) by (cbn; unfold is_mspace, is_space in *; lia). split; [apply space0_none|]; assumption.
  - inversion Hb; subst. destruct (is_space y) eqn:E.
    + destruct (IH ltac:(assumption)) as (b1 & b2 & -> & Hb1 & _ & Hh). assert (Hy : Blank (y :: b1)) by (constructor; [unfold is_space in E; lia|exact Hb1]).
      exists (y :: b1), b2. split; [reflexivity|]. split; [exact Hy|]. split; [|exact Hh]. change ((y :: b1 ++ b2) ++ x :: r) with ((y :: b1 ++ b2) ++ x :: r). rewrite app_comm_cons, <- app_assoc. apply space0_complete; assumption.
    + exists [], (y :: b). split; [reflexivity|]. split; [constructor|]. split; [apply space0_none; exact E|exact E].
Qed.
Lemma id_back c rest : c <> 64 -> is_mspace c = false -> stop c rest -> opt (space0 ;; parse_id) rest = POk None rest.
Proof.
  intros Hc Hcm (b & x & r & -> & Hb & Hx). apply opt_back. assert (Hxm : is_mspace x = false) by (destruct Hx as [-> | ->]; [reflexivity|exact Hcm]).
  destruct (space0_white b x r Hb Hxm) as (b1 & b2 & -> & Hb1 & Es & _). rewrite (bind_ok _ _ _ _ _ Es).
  unfold parse_id. apply bind_back. destruct b2 as [|y b2]; cbn [app]; apply char_miss; [destruct Hx as [-> | ->]; [discriminate|exact Hc]|].
  apply white_tail, white_char in Hb. unfold is_mspace in Hb. lia.
Qed.
Lemma stop_digit c rest : is_digit c = false -> stop c rest -> hn is_digit rest.
Proof. intros Hc. apply stop_hn; [|reflexivity|exact Hc]. intros x. unfold is_digit, is_mspace. lia. Qed.
Lemma id_complete c si i rest : c <> 64 -> is_mspace c = false -> is_digit c = false -> wopt wid si i -> stop c rest -> opt (space0 ;; parse_id) (si ++ rest) = POk i rest.
Proof.
  intros Hc Hcm Hcd Hi Hst. destruct Hi as [|s a [b d n Hb Hd Hn]]; [apply (id_back c); assumption|]. apply opt_ok. rewrite <- !app_assoc.
  rewrite (bind_ok _ _ _ tt (w "@" ++ d ++ rest)) by (apply space0_complete; [exact Hb|reflexivity]). unfold parse_id. rewrite (bind_ok _ _ _ tt (d ++ rest)) by apply char_hit.
  apply decimal_complete; [exact Hd|lia|]. apply (stop_digit c); assumption.
Qed.
Lemma line_complete s l r : wline s l -> comment_line (s ++ r) = POk l r.
Proof.
  intros [b1 b2 l' Hb1 Hb2 [Hl1 Hl2]]. rewrite <- !app_assoc. unfold comment_line.
  rewrite (bind_ok _ _ _ tt (w "///" ++ b2 ++ l' ++ [10] ++ r)) by (apply space0_complete; [exact Hb1|reflexivity]).
  rewrite (bind_ok _ _ _ tt (b2 ++ l' ++ [10] ++ r)) by apply (tag_app (tx "///")).
  rewrite (bind_ok _ _ _ tt (l' ++ [10] ++ r)).
  2:{ apply space0_complete; [exact Hb2|]. destruct l' as [|c l']; [reflexivity|]. cbn. unfold is_space. lia. }
  rewrite (bind_ok _ _ _ l' ([10] ++ r)); [reflexivity|]. apply take_ok; [|reflexivity|cbn; lia]. apply forallb_forall. intros c Hc. destruct (c =? 10) eqn:E; [|reflexivity]. apply N.eqb_eq in E as ->. contradiction.
Qed.
Lemma wline_length s l : wline s l -> (0 < length s)%nat.
Proof. intros [b1 b2 l' _ _ _]. rewrite !app_length. cbn. lia. Qed.
Lemma lines_chain s c rest : wcomment s c -> comment_line rest = PBack -> chain comment_line (s ++ rest) c rest.
Proof.
  intros H Hr. induction H as [|s a t l Hs Ht IH]; [constructor; exact Hr|]. rewrite <- app_assoc. apply chain_cons with (r := t ++ rest); [apply line_complete, Hs| |exact IH].
  apply wline_length in Hs. rewrite !app_length. lia.
Qed.
Lemma line_back b x r : White b -> is_mspace x = false -> x <> 47 -> comment_line (b ++ x :: r) = PBack.
Proof.
  intros Hb Hx Hx'. destruct (space0_white b x r Hb Hx) as (b1 & b2 & -> & _ & E & _). unfold comment_line. rewrite (bind_ok _ _ _ _ _ E). apply bind_back. apply white_tail in Hb.
  destruct b2 as [|y b2]; cbn [app]; apply (tag_miss 47 (tx "//")); [exact Hx'|]. apply white_char in Hb. unfold is_mspace in Hb. lia.
Qed.
Lemma comments_complete b1 sc c b2 x r : White b1 -> wcomment sc c -> White b2 -> is_mspace x = false -> x <> 47 ->
  exists b0 b', b2 = b0 ++ b' /\ ws comments (b1 ++ sc ++ b2 ++ x :: r) = POk c (b' ++ x :: r).
Proof.
  intros Hb1 Hc Hb2 Hx Hx'. destruct Hc as [|s a t l Hs Ht].
  - exists b2, []. split; [rewrite app_nil_r; reflexivity|]. cbn [app]. rewrite app_assoc, ws_ok; [|apply white_sp, white_app; assumption|exact Hx]. apply repeat_chain. constructor. apply (line_back []); [constructor|exact Hx|exact Hx'].
  - exists [], b2. split; [reflexivity|]. destruct Hs as [c1 c2 l' Hc1 Hc2 Hl]. rewrite <- !app_assoc, (app_assoc b1), ws_ok; [|apply white_sp, white_app; [assumption|apply blank_white, Hc1]|reflexivity].
    apply repeat_chain. pose proof (lines_chain ((w "///" ++ c2 ++ l' ++ [10]) ++ t) (l' :: l) (b2 ++ x :: r)) as H. rewrite <- !app_assoc in H. apply H; [|apply line_back; assumption].
    rewrite !(app_assoc _ _ t). rewrite <- !app_assoc. change (w "///" ++ c2 ++ l' ++ [10] ++ t) with (([] ++ w "///" ++ c2 ++ l' ++ [10] ++ t)). replace ([] ++ w "///" ++ c2 ++ l' ++ [10] ++ t) with (([] ++ w "///" ++ c2 ++ l' ++ [10]) ++ t) by (rewrite <- !app_assoc; reflexivity).
    constructor; [|exact Ht]. constructor; [constructor|assumption|assumption].
Qed.
Lemma blank_suffix b0 b' : Blank (b0 ++ b') -> Blank b'.
Proof. intros H. apply Forall_app in H as [_ H]. exact H. Qed.

(** * Fields and variants *)
Lemma stop_tstop c rest : tstop c = false -> stop c rest -> hn tstop rest.
Proof. intros Hc. apply stop_hn; [apply tstop_ms|reflexivity|exact Hc]. Qed.
Lemma wid_head si i rest c : wopt wid si i -> tstop c = false -> stop c rest -> hn tstop (si ++ rest).
Proof.
  intros Hi Hc Hst. destruct Hi as [|s a [b d n Hb Hd Hn]]; [apply (stop_tstop c); assumption|]. rewrite <- !app_assoc. apply white_stop; [apply blank_white, Hb|reflexivity].
Qed.
Lemma ufield_complete s f rest : wufield s f -> stop 41 rest -> parse_unnamed_field (s ++ rest) = POk f rest.
Proof.
  intros [b st t si i Hb Ht Hi] Hst. rewrite <- !app_assoc. unfold parse_unnamed_field. rewrite (bind_ok _ _ _ t (si ++ rest)).
  2:{ rewrite ws_ok; [|apply white_sp, Hb|destruct (wtype_ms _ _ Ht) as (x & q & -> & Hx); exact Hx]. apply ptype_complete; [exact Ht|]. apply (wid_head si i rest 41); [exact Hi|reflexivity|exact Hst]. }
  rewrite (bind_ok _ _ _ i rest); [reflexivity|]. apply (id_complete 41); [discriminate|reflexivity|reflexivity|exact Hi|exact Hst].
Qed.
Lemma lower_head n : LowerName n -> exists x t, n = x :: t /\ lower x.
Proof. intros (c & t & -> & Hc & _). eauto. Qed.
Lemma upper_head n : TypeName n -> exists x t, n = x :: t /\ upper x.
Proof. intros (c & t & -> & Hc & _). eauto. Qed.
Lemma blank_hn (f : N -> bool) b r : Blank b -> f 32 = false -> f 9 = false -> hn f r -> hn f (b ++ r).
Proof. intros Hb H1 H2 Hr. destruct b as [|y b]; [exact Hr|]. inversion Hb as [|? ? Hy]; subst. cbn. destruct Hy as [-> | ->]; assumption. Qed.
Lemma nfield_complete s f rest : wnfield s f -> stop 125 rest -> parse_named_field (s ++ rest) = POk f rest.
Proof.
  intros [b1 sc c b2 n b3 b4 st t si i Hb1 Hc Hb2 Hn Hb3 Hb4 Ht Hi] Hst. rewrite <- !app_assoc. unfold parse_named_field.
  destruct (lower_head n Hn) as (x & nt & En & Hx). assert (Hxm : is_mspace x = false) by (unfold lower, is_mspace in *; lia).
  destruct (comments_complete b1 sc c b2 x (nt ++ b3 ++ w ":" ++ b4 ++ st ++ si ++ rest) Hb1 Hc (blank_white _ Hb2) Hxm ltac:(unfold lower in Hx; lia)) as (b0 & b' & Eb & Ec).
  rewrite En at 1. cbn [app]. rewrite (bind_ok _ _ _ _ _ Ec). rewrite (app_comm_cons nt _ x), <- En.
  rewrite (bind_ok _ _ _ tt (n ++ b3 ++ w ":" ++ b4 ++ st ++ si ++ rest)).
  2:{ apply space0_complete; [subst b2; exact (blank_suffix _ _ Hb2)|]. rewrite En. cbn. unfold lower, is_space in *. lia. }
  rewrite (bind_ok _ _ _ n (b3 ++ w ":" ++ b4 ++ st ++ si ++ rest)) by (apply lower_name_ok; [exact Hn|apply blank_hn; [exact Hb3|reflexivity|reflexivity|reflexivity]]).
  rewrite (bind_ok _ _ _ tt (w ":" ++ b4 ++ st ++ si ++ rest)) by (apply space0_complete; [exact Hb3|reflexivity]).
  rewrite (bind_ok _ _ _ tt (b4 ++ st ++ si ++ rest)) by apply char_hit.
  rewrite (bind_ok _ _ _ tt (st ++ si ++ rest)).
  2:{ apply space0_complete; [exact Hb4|]. destruct (wtype_ms _ _ Ht) as (y & q & -> & Hy). cbn. unfold is_mspace, is_space in *. lia. }
  rewrite (bind_ok _ _ _ t (si ++ rest)) by (apply ptype_complete; [exact Ht|apply (wid_head si i rest 125); [exact Hi|reflexivity|exact Hst]]).
  rewrite (bind_ok _ _ _ i rest); [reflexivity|]. apply (id_complete 125); [discriminate|reflexivity|reflexivity|exact Hi|exact Hst].
Qed.
Lemma comments_none b x r : White b -> is_mspace x = false -> x <> 47 -> ws comments (b ++ x :: r) = POk [] (x :: r).
Proof.
  intros Hb Hx Hx'. rewrite ws_ok; [|apply white_sp, Hb|exact Hx]. apply repeat_chain. constructor. apply (line_back []); [constructor|exact Hx|exact Hx'].
Qed.
Lemma nfield_back b r : White b -> parse_named_field (b ++ 125 :: r) = PBack.
Proof. intros Hb. unfold parse_named_field. unfold pbind at 1. rewrite comments_none by (exact Hb || reflexivity || discriminate). reflexivity. Qed.
Lemma ufield_back b r : White b -> parse_unnamed_field (b ++ 41 :: r) = PBack.
Proof. intros Hb. unfold parse_unnamed_field. apply bind_back. rewrite ws_ok; [|apply white_sp, Hb|reflexivity]. unfold ptype. cbn [length]. apply close_type. left. reflexivity. Qed.
Lemma fields_complete s fs rest : wfields s fs -> fs <> FUnit -> parse_fields (s ++ rest) = POk fs rest.
Proof.
  intros [s' p H|s' p H|] Hfs; [| |contradiction]; unfold parse_fields.
  - assert (E : exists X, s' = 123 :: X) by (destruct H; eexists; reflexivity). destruct E as [X ->]. rewrite (bind_ok _ _ _ 123 ((123 :: X) ++ rest)) by reflexivity. cbn [N.eqb]. apply map_ok.
    apply (enclosed_complete parse_named_field wnfield (length (123 :: X)) 125) with (o := 123); try (exact H || discriminate || reflexivity || lia); [|apply nfield_back].
    intros s0 a r _ Hs Hst. apply done_exact, nfield_complete; assumption.
  - assert (E : exists X, s' = 40 :: X) by (destruct H; eexists; reflexivity). destruct E as [X ->]. rewrite (bind_ok _ _ _ 40 ((40 :: X) ++ rest)) by reflexivity. cbn [N.eqb]. apply map_ok.
    apply (enclosed_complete parse_unnamed_field wufield (length (40 :: X)) 41) with (o := 40); try (exact H || discriminate || reflexivity || lia); [|apply ufield_back].
    intros s0 a r _ Hs Hst. apply done_exact, ufield_complete; assumption.
Qed.
Lemma fields_unit x r : x <> 123 -> x <> 40 -> parse_fields (x :: r) = POk FUnit (x :: r).
Proof. intros H1 H2. unfold parse_fields. rewrite (bind_ok _ _ _ x (x :: r)) by reflexivity. apply N.eqb_neq in H1, H2. rewrite H1, H2. reflexivity. Qed.
Lemma fields_head s fs : wfields s fs -> fs <> FUnit -> exists x t, s = x :: t /\ (x = 123 \/ x = 40).
Proof. intros [s' p [body b p' _ _]|s' p [body b p' _ _]|] Hfs; [| |contradiction]; eexists; eexists; (split; [reflexivity|auto]). Qed.
Lemma variant_complete s v rest : wvariant s v -> stop 125 rest -> done parse_variant (s ++ rest) v rest.
Proof.
  intros [b1 sc c b2 n b3 sf fs si i Hb1 Hc Hb2 Hn Hb3 Hf Hi] Hst. rewrite <- !app_assoc. unfold done.
  destruct (upper_head n Hn) as (x & nt & En & Hx). assert (Hxm : is_mspace x = false) by (unfold upper, is_mspace in *; lia).
  destruct (comments_complete b1 sc c b2 x (nt ++ b3 ++ sf ++ si ++ rest) Hb1 Hc (blank_white _ Hb2) Hxm ltac:(unfold upper in Hx; lia)) as (b0 & b' & Eb & Ec).
  replace (n ++ b3 ++ sf ++ si ++ rest) with (x :: nt ++ b3 ++ sf ++ si ++ rest) by (rewrite En; reflexivity).
  assert (Hgo : forall q, type_name (n ++ b3 ++ sf ++ si ++ rest) = POk n q ->
    parse_variant (b1 ++ sc ++ b2 ++ x :: nt ++ b3 ++ sf ++ si ++ rest) = (space0 ;; pdo fs <- parse_fields; pdo i <- opt (space0 ;; parse_id); pret (PVariant c n fs i)) q).
  { intros q Hq. unfold parse_variant. rewrite (bind_ok _ _ _ _ _ Ec). rewrite (app_comm_cons nt _ x), <- En.
    rewrite (bind_ok _ _ _ tt (n ++ b3 ++ sf ++ si ++ rest)); [rewrite (bind_ok _ _ _ _ _ Hq); reflexivity|].
    apply space0_complete; [subst b2; exact (blank_suffix _ _ Hb2)|]. rewrite En. cbn. unfold upper, is_space in *. lia. }
  assert (Hal : forall y, is_alnum y = true -> is_mspace y = false) by (intros y; unfold is_alnum, is_lower, is_upper, is_digit, is_mspace; lia).
  assert (Hrest : hn is_alnum rest) by (apply (stop_hn _ 125); [exact Hal|reflexivity|reflexivity|exact Hst]).
  assert (Hsi : hn is_alnum (si ++ rest)).
  { destruct Hi as [|s0 a0 [b d m Hb Hd Hm]]; [exact Hrest|]. rewrite <- !app_assoc. apply blank_hn; [exact Hb|reflexivity|reflexivity|reflexivity]. }
  assert (Hdec : fs = FUnit \/ fs <> FUnit) by (destruct fs; [right|right|left]; congruence). destruct Hdec as [-> | Hfs].
  - inversion Hf; subst sf. cbn [app] in *. destruct Hi as [|s0 a0 [b d m Hb Hd Hm]].
    + destruct Hst as (br & y & r & -> & Hbr & Hy). assert (Hym : is_mspace y = false) by (destruct Hy as [-> | ->]; reflexivity).
      destruct (space0_white (b3 ++ br) y r (white_app _ _ (blank_white _ Hb3) Hbr) Hym) as (q1 & q2 & Eq & Hq1 & Es & Hh).
      destruct (space0_white br y r Hbr Hym) as (p1 & p2 & -> & Hp1 & Es' & Hh').
      exists p1, (p2 ++ y :: r). split; [rewrite <- app_assoc; reflexivity|]. split; [exact Hp1|]. cbn [app].
      etransitivity; [apply (Hgo (b3 ++ (p1 ++ p2) ++ y :: r)); apply type_name_ok; [exact Hn|apply blank_hn; [exact Hb3|reflexivity|reflexivity|exact Hrest]]|].
      rewrite (bind_ok _ _ _ tt (p2 ++ y :: r)).
      2:{ rewrite <- app_assoc, app_assoc. apply space0_complete; [apply blank_app; assumption|exact Hh']. }
      assert (Hst' : stop 125 (p2 ++ y :: r)) by (exists p2, y, r; split; [reflexivity|]; split; [exact (white_tail _ _ Hbr)|exact Hy]).
      rewrite (bind_ok _ _ _ FUnit (p2 ++ y :: r)).
      2:{ destruct p2 as [|z p2]; cbn [app]; apply fields_unit; try (destruct Hy as [-> | ->]; discriminate); apply white_tail, white_char in Hbr; unfold is_mspace in Hbr; lia. }
      rewrite (bind_ok _ _ _ None (p2 ++ y :: r)); [reflexivity|]. apply (id_back 125); [discriminate|reflexivity|exact Hst'].
    + exists [], rest. split; [reflexivity|]. split; [constructor|].
      etransitivity; [apply (Hgo (b3 ++ (b ++ w "@" ++ d) ++ rest)); apply type_name_ok; [exact Hn|apply blank_hn; [exact Hb3|reflexivity|reflexivity|exact Hsi]]|].
      rewrite <- !app_assoc. rewrite app_assoc. rewrite (bind_ok _ _ _ tt (w "@" ++ d ++ rest)) by (apply space0_complete; [apply blank_app; assumption|reflexivity]).
      rewrite (bind_ok _ _ _ FUnit (w "@" ++ d ++ rest)) by (apply fields_unit; discriminate).
      rewrite (bind_ok _ _ _ (Some m) rest); [reflexivity|].
      pose proof (id_complete 125 ([] ++ w "@" ++ d) (Some m) rest) as H. rewrite <- !app_assoc in H. apply H; [discriminate|reflexivity|reflexivity| |exact Hst]. constructor. constructor; [constructor|exact Hd|exact Hm].
  - exists [], rest. split; [reflexivity|]. split; [constructor|]. destruct (fields_head _ _ Hf Hfs) as (y & t & Ey & Hy).
    etransitivity; [apply (Hgo (b3 ++ sf ++ si ++ rest)); apply type_name_ok; [exact Hn|apply blank_hn; [exact Hb3|reflexivity|reflexivity|rewrite Ey; destruct Hy as [-> | ->]; reflexivity]]|].
    rewrite (bind_ok _ _ _ tt (sf ++ si ++ rest)) by (apply space0_complete; [exact Hb3|rewrite Ey; destruct Hy as [-> | ->]; reflexivity]).
    rewrite (bind_ok _ _ _ fs (si ++ rest)) by (apply fields_complete; assumption).
    rewrite (bind_ok _ _ _ i rest); [reflexivity|]. apply (id_complete 125); [discriminate|reflexivity|reflexivity|exact Hi|exact Hst].
Qed.
Lemma variant_back b r : White b -> parse_variant (b ++ 125 :: r) = PBack.
Proof. intros Hb. unfold parse_variant. unfold pbind at 1. rewrite comments_none by (exact Hb || reflexivity || discriminate). reflexivity. Qed.
Lemma variants_complete s vs rest : wenclosed wvariant [123] [125] s vs -> surround 123 125 (punctuated parse_variant) (s ++ rest) = POk vs rest.
Proof.
  intros H. apply (enclosed_complete parse_variant wvariant (length s) 125) with (o := 123); try (exact H || discriminate || reflexivity || lia); [|apply variant_back].
  intros s' a r _ Hs Hst. apply variant_complete; assumption.
Qed.
Lemma generics_complete sg g rest : wgenerics sg g -> hn (fun c => c =? 60) rest -> opt parse_generics (sg ++ rest) = POk g rest.
Proof.
  intros H Hr. destruct H as [|s p H].
  - apply opt_back. unfold parse_generics, surround. apply bind_back. destruct rest as [|c rest]; [reflexivity|]. cbn in *. rewrite Hr. reflexivity.
  - apply opt_ok. apply (enclosed_complete (ws type_name) (behind wname) (length s) 62) with (o := 60); try (exact H || discriminate || reflexivity || lia).
    + apply behind_complete; [intros s' a [n Hn]; destruct (upper_head n Hn) as (x & t & -> & Hx); exists x, t; split; [reflexivity|unfold upper, is_mspace in *; lia]|].
      intros s' a r _ [n Hn] Hst. apply done_exact, type_name_ok; [exact Hn|]. apply (stop_hn _ 62); [|reflexivity|reflexivity|exact Hst]. intros y; unfold is_alnum, is_lower, is_upper, is_digit, is_mspace; lia.
    + intros b r Hb. rewrite ws_ok; [reflexivity|apply white_sp, Hb|reflexivity].
Qed.

(** * Literals *)
Definition lit_char (c : N) : bool := is_digit c || (c =? 46) || (c =? 101) || (c =? 69).
Lemma sign_complete s neg r : wsign s neg -> hn is_sign r -> exists o, opt (one_of is_sign) (s ++ r) = POk o r /\ sign_text o = s /\ neg = match o with Some c => c =? 45 | None => false end.
Proof.
  intros [| |] Hr.
  - exists None. split; [|auto]. apply opt_back. destruct r as [|c r]; [reflexivity|]. cbn in *. rewrite Hr. reflexivity.
  - exists (Some 43). auto.
  - exists (Some 45). auto.
Qed.
Lemma digits_complete d r : Forall digit d -> d <> [] -> hn is_digit r -> take_while 1 is_digit (d ++ r) = POk d r.
Proof. intros Hd Hne Hr. apply take_ok; [apply digits_b, Hd|exact Hr|]. destruct d; [contradiction|cbn; lia]. Qed.
Lemma digit_head d r : Forall digit d -> d <> [] -> hn is_sign (d ++ r).
Proof. intros Hd Hne. destruct d as [|c d]; [contradiction|]. inversion Hd; subst. cbn. unfold digit, is_sign in *. lia. Qed.
Lemma num_head s neg d r : wsign s neg -> Forall digit d -> d <> [] -> exists c t, s ++ d ++ r = c :: t /\ is_sign c || is_digit c = true /\ (c =? 116) = false /\ (c =? 102) = false /\ is_mspace c = false.
Proof.
  intros Hs Hd Hne. destruct d as [|x d]; [contradiction|]. inversion Hd; subst. destruct Hs; eexists; eexists; (split; [reflexivity|]); try (repeat split; reflexivity). unfold digit, is_sign, is_digit, is_mspace in *. lia.
Qed.
Lemma hex_iff h v : Hex h v -> forallb is_hex h = true /\ hex_value h = v.
Proof.
  induction 1 as [|h v c x H [IH1 IH2] Hc]; [auto|]. rewrite forallb_app. unfold hex_value in *. rewrite fold_left_app, IH1, IH2. cbn [fold_left forallb].
  unfold hexdigit, is_hex, hex_digit, is_digit, digit in *. split; [lia|]. destruct ((48 <=? c) && (c <=? 57)) eqn:E1; [lia|]. destruct ((97 <=? c) && (c <=? 102)) eqn:E2; lia.
Qed.
Lemma span_max_app f a : forall m r, forallb f a = true -> (length a <= m)%nat -> hn f r -> span_max m f (a ++ r) = (a, r).
Proof.
  induction a as [|c a IH]; intros m r Ha Hl Hr.
  - destruct m as [|m], r as [|x r]; cbn in *; try reflexivity. rewrite Hr. reflexivity.
  - destruct m as [|m]; cbn in Hl; [lia|]. cbn in *. apply andb_true_iff in Ha as [-> Ha]. rewrite IH by (try assumption; lia). reflexivity.
Qed.
Lemma take_between_complete f a m r : forallb f a = true -> (1 <= length a <= m)%nat -> hn f r -> take_between m f (a ++ r) = POk a r.
Proof. intros Ha Hl Hr. unfold take_between. rewrite span_max_app by (try assumption; lia). destruct a; [cbn in Hl; lia|reflexivity]. Qed.
Lemma escape_complete e c r : wescape e c -> parse_fragment (92 :: e ++ r) = POk [c] r.
Proof.
  intros H. destruct H as [| | | | | | | | |h v Hh Hl Hv]; try reflexivity. unfold parse_fragment. rewrite alt_back by reflexivity. apply alt_ok. rewrite <- !app_assoc.
  apply (map_ok (fun c => [c]) parse_escaped_char _ v r). unfold parse_escaped_char. rewrite (bind_ok _ _ _ tt (w "u{" ++ h ++ w "}" ++ r)) by apply char_hit. rewrite (bind_ok _ _ _ 117 (w "u{" ++ h ++ w "}" ++ r)) by reflexivity.
  cbn [N.eqb Pos.eqb]. unfold parse_string_unicode. destruct (hex_iff _ _ Hh) as [Hx <-]. rewrite (bind_ok _ _ _ h r); [apply is_scalar_ok in Hv; rewrite Hv; reflexivity|].
  rewrite (bind_ok _ _ _ tt (w "{" ++ h ++ w "}" ++ r)) by reflexivity. apply cut_ok. rewrite (bind_ok _ _ _ tt (h ++ w "}" ++ r)) by reflexivity.
  rewrite (bind_ok _ _ _ h (w "}" ++ r)) by (apply take_between_complete; [exact Hx|exact Hl|reflexivity]). reflexivity.
Qed.
Lemma gap_complete b r : White b -> b <> [] -> hn is_mspace r -> parse_fragment (92 :: b ++ r) = POk [] r.
Proof.
  intros Hb Hne Hr. unfold parse_fragment. rewrite alt_back by reflexivity. rewrite alt_back.
  - rewrite (bind_ok _ _ _ tt (b ++ r)) by apply char_hit. rewrite (bind_ok _ _ _ tt r); [reflexivity|]. unfold multispace1. apply (map_ok (fun _ => tt) _ _ b). apply take_ok; [apply white_sp, Hb|exact Hr|]. destruct b; [contradiction|cbn; lia].
  - destruct b as [|y b]; [contradiction|]. inversion Hb as [|? ? Hy]; subst. unfold pmap. apply bind_back. destruct Hy as [-> |[-> |[-> | ->]]]; reflexivity.
Qed.
Definition plain (c : N) : bool := negb ((c =? 34) || (c =? 92)).
Lemma chars_chain s v q : wchars s v -> exists p s' l, s = p ++ s' /\ forallb plain p = true /\ hn plain (s' ++ 34 :: q) /\ chain parse_fragment (s' ++ 34 :: q) l (34 :: q) /\ v = p ++ concat l.
Proof.
  assert (Full : forall s v, (exists p s' l, s = p ++ s' /\ forallb plain p = true /\ hn plain (s' ++ 34 :: q) /\ chain parse_fragment (s' ++ 34 :: q) l (34 :: q) /\ v = p ++ concat l) ->
     exists l, chain parse_fragment (s ++ 34 :: q) l (34 :: q) /\ v = concat l).
  { clear. intros s v (p & s' & l & -> & Hp & Hh & Hc & ->). destruct p as [|c p]; [exists l; auto|]. exists ((c :: p) :: l). split; [|reflexivity]. rewrite <- app_assoc. apply chain_cons with (r := s' ++ 34 :: q).
    - unfold parse_fragment. apply alt_ok. unfold take_till. apply take_ok; [exact Hp|exact Hh|cbn; lia].
    - rewrite !app_length. cbn. lia.
    - exact Hc. }
  induction 1 as [|c s v H1 H2 H IH|e c s v He H IH|b s v Hb Hne Hs H IH].
  - exists [], [], []. split; [reflexivity|]. split; [reflexivity|]. split; [reflexivity|]. split; [constructor; reflexivity|reflexivity].
  - destruct IH as (p & s' & l & -> & Hp & Hh & Hc & ->). exists (c :: p), s', l. split; [reflexivity|]. split; [cbn [forallb]; rewrite Hp; unfold plain; lia|]. auto.
  - apply Full in IH as (l & Hc & ->). exists [], (w "\" ++ e ++ s), ([c] :: l). split; [reflexivity|]. split; [reflexivity|]. split; [reflexivity|]. split; [|reflexivity]. rewrite <- !app_assoc. apply chain_cons with (r := s ++ 34 :: q).
    + exact (escape_complete e c (s ++ 34 :: q) He).
    + cbn. rewrite !app_length. lia.
    + exact Hc.
  - apply Full in IH as (l & Hc & ->). exists [], (w "\" ++ b ++ s), ([] :: l). split; [reflexivity|]. split; [reflexivity|]. split; [reflexivity|]. split; [|reflexivity]. rewrite <- !app_assoc. apply chain_cons with (r := s ++ 34 :: q).
    + refine (gap_complete b (s ++ 34 :: q) Hb Hne _). destruct s as [|x s]; [reflexivity|]. cbn. destruct (is_mspace x) eqn:E; [|reflexivity]. destruct Hs. constructor; [|constructor]. unfold is_mspace in E. lia.
    + cbn. rewrite !app_length. lia.
    + exact Hc.
Qed.
Lemma string_complete s v r : wchars s v -> parse_string (34 :: s ++ 34 :: r) = POk v r.
Proof.
  intros H. destruct (chars_chain s v r H) as (p & s' & l & -> & Hp & Hh & Hc & ->). unfold parse_string. rewrite (bind_ok _ _ _ tt ((p ++ s') ++ 34 :: r)) by apply char_hit. apply cut_ok. rewrite <- app_assoc.
  destruct p as [|x p].
  - rewrite (bind_ok _ _ _ l (34 :: r)) by (apply repeat_chain, Hc). rewrite (bind_ok _ _ _ tt r) by apply char_hit. reflexivity.
  - rewrite (bind_ok _ _ _ ((x :: p) :: l) (34 :: r)); [rewrite (bind_ok _ _ _ tt r) by apply char_hit; reflexivity|]. apply repeat_chain. apply chain_cons with (r := s' ++ 34 :: r); [|rewrite !app_length; cbn; lia|exact Hc].
    unfold parse_fragment. apply alt_ok. unfold take_till. apply take_ok; [exact Hp|exact Hh|cbn; lia].
Qed.

(** Comma separated elements. *)
Section Sep.
Context {A : Type} (e : parser A) (E : str -> A -> Prop) (n : nat) (c : N).
Hypothesis He : forall s a rest, (length s <= n)%nat -> E s a -> stop c rest -> e (s ++ rest) = POk a rest.
Lemma sep_chain s l : wseparated E s l -> (length s <= n)%nat -> forall rest, stop c rest -> (ws comma ;; e) rest = PBack ->
  exists s0 a l' s1, s = s0 ++ s1 /\ l = a :: l' /\ (length s0 <= n)%nat /\ E s0 a /\ stop c (s1 ++ rest) /\ chain (ws comma ;; e) (s1 ++ rest) l' rest.
Proof.
  induction 1 as [s a Hs|s a b t l Hs Hb H IH]; intros Hl rest Hst Hend.
  - exists s, a, [], []. split; [rewrite app_nil_r; reflexivity|]. split; [reflexivity|]. split; [exact Hl|]. split; [exact Hs|]. split; [exact Hst|constructor; exact Hend].
  - rewrite !app_length in Hl. cbn in Hl. destruct (IH ltac:(lia) rest Hst Hend) as (s0 & a0 & l' & s1 & -> & -> & Hl0 & Hs0 & Hst0 & Hch).
    exists s, a, (a0 :: l'), (b ++ w "," ++ s0 ++ s1). split; [reflexivity|]. split; [reflexivity|]. split; [lia|]. split; [exact Hs|].
    split; [exists b, 44, ((s0 ++ s1) ++ rest); split; [rewrite <- !app_assoc; reflexivity|auto]|]. rewrite <- !app_assoc. apply chain_cons with (r := s1 ++ rest).
    + rewrite (bind_ok _ _ _ tt (s0 ++ s1 ++ rest)); [apply He; assumption|]. rewrite ws_ok; [apply char_hit|apply white_sp, Hb|reflexivity].
    + rewrite !app_length. cbn. lia.
    + exact Hch.
Qed.
Lemma separated_complete s l rest : wseparated E s l -> (length s <= n)%nat -> stop c rest -> (ws comma ;; e) rest = PBack -> separated1 e (ws comma) (s ++ rest) = POk l rest.
Proof.
  intros Hs Hl Hst Hend. destruct (sep_chain s l Hs Hl rest Hst Hend) as (s0 & a & l' & s1 & -> & -> & Hl0 & Hs0 & Hst0 & Hch). rewrite <- app_assoc. unfold separated1.
  rewrite (bind_ok _ _ _ a (s1 ++ rest)) by (apply He; assumption). rewrite (bind_ok _ _ _ l' rest) by (apply separated_chain, Hch). reflexivity.
Qed.
End Sep.
Lemma list_sep {A} (E : str -> A -> Prop) s l x t : wlist E s (Punct l x t) -> exists s0 tail, s = s0 ++ tail /\ wseparated E s0 (l ++ [x]) /\ (t = false /\ tail = [] \/ t = true /\ exists b, White b /\ tail = b ++ w ",").
Proof.
  remember (Punct l x t) as p eqn:Ep. intros H. revert l x t Ep. induction H as [s a Hs|s a b Hs Hb|s a b rest l0 x0 t0 Hs Hb H IH]; intros l x t Ep.
  - assert ([] = l /\ a = x /\ false = t) as (<- & <- & <-) by (repeat split; congruence). exists s, []. split; [rewrite app_nil_r; reflexivity|]. split; [constructor; exact Hs|auto].
  - assert ([] = l /\ a = x /\ true = t) as (<- & <- & <-) by (repeat split; congruence). exists s, (b ++ w ","). split; [reflexivity|]. split; [constructor; exact Hs|]. right. eauto.
  - assert (a :: l0 = l /\ x0 = x /\ t0 = t) as (<- & <- & <-) by (repeat split; congruence). destruct (IH _ _ _ eq_refl) as (s0 & tail & -> & Hs0 & Ht). exists (s ++ b ++ w "," ++ s0), tail. split; [rewrite <- !app_assoc; reflexivity|]. split; [|exact Ht]. cbn [app]. apply ws_more; assumption.
Qed.
Lemma byte_back b r : White b -> ws (dec_uint 255) (b ++ 93 :: r) = PBack.
Proof. intros Hb. rewrite ws_ok; [reflexivity|apply white_sp, Hb|reflexivity]. Qed.
Lemma bytes_complete s l x t r : wenclosed (behind wbyte) [91] [93] s (Punct l x t) -> parse_bytes (s ++ r) = POk (l ++ [x]) r.
Proof.
  intros H. remember (Punct l x t) as p eqn:Ep. destruct H as [body b p' Hw Hb]. subst p'. apply list_sep in Hw as (s0 & tail & -> & Hs & Ht). rewrite <- !app_assoc. unfold parse_bytes.
  rewrite (bind_ok _ _ _ tt (s0 ++ tail ++ b ++ [93] ++ r)) by apply char_hit. apply cut_ok. cbn [app].
  assert (Hend : stop 93 (tail ++ b ++ 93 :: r) /\ (ws comma ;; ws (dec_uint 255)) (tail ++ b ++ 93 :: r) = PBack /\ opt (ws comma) (tail ++ b ++ 93 :: r) = POk (if t then Some tt else None) (b ++ 93 :: r)).
  { destruct Ht as [[-> ->]|(-> & b' & Hb' & ->)].
    - assert (Hcm : ws comma (b ++ 93 :: r) = PBack) by (rewrite ws_ok; [reflexivity|apply white_sp, Hb|reflexivity]). cbn [app]. split; [exists b, 93, r; auto|]. split; [apply bind_back, Hcm|apply opt_back, Hcm].
    - rewrite <- app_assoc. assert (Hcm : ws comma (b' ++ w "," ++ b ++ 93 :: r) = POk tt (b ++ 93 :: r)) by (rewrite ws_ok; [apply char_hit|apply white_sp, Hb'|reflexivity]).
      split; [exists b', 44, (b ++ 93 :: r); auto|]. split; [rewrite (bind_ok _ _ _ _ _ Hcm); apply byte_back, Hb|apply opt_ok, Hcm]. }
  destruct Hend as (Hst & Hend & Hopt).
  rewrite (bind_ok _ _ _ (l ++ [x]) (tail ++ b ++ 93 :: r)).
  - rewrite (bind_ok _ _ _ _ _ Hopt). rewrite (bind_ok _ _ _ tt r); [reflexivity|]. rewrite ws_ok; [apply char_hit|apply white_sp, Hb|reflexivity].
  - apply (separated_complete _ (behind wbyte) (length s0) 93); [|exact Hs|lia|exact Hst|exact Hend].
    intros s' a rest _ Hs' Hst'. destruct Hs' as [b' s'' a' Hb' Hs']. destruct Hs' as [d m Hd Hm]. rewrite <- app_assoc. rewrite ws_ok; [apply decimal_complete; [exact Hd|lia|apply (stop_digit 93); [reflexivity|exact Hst']]|apply white_sp, Hb'|].
    destruct (decimal_ms _ _ Hd) as (y & q & -> & Hy). cbn. unfold digit, is_mspace in *. lia.
Qed.

Section Lit.
Context {F : Type} (parse_f64 : str -> option F).
Lemma float_complete s neg a b e f rest : wsign s neg -> Forall digit a -> a <> [] -> Forall digit b -> b <> [] -> wexponent e -> parse_f64 (s ++ a ++ w "." ++ b ++ e) = Some f -> hn lit_char rest ->
  parse_float parse_f64 (s ++ a ++ w "." ++ b ++ e ++ rest) = POk f rest.
Proof.
  intros Hs Ha Ha' Hb Hb' He Hf Hr. unfold parse_float. destruct (sign_complete s neg (a ++ w "." ++ b ++ e ++ rest) Hs (digit_head _ _ Ha Ha')) as (o & Eo & Es & _). rewrite (bind_ok _ _ _ _ _ Eo).
  rewrite (bind_ok _ _ _ a (w "." ++ b ++ e ++ rest)) by (apply digits_complete; [exact Ha|exact Ha'|reflexivity]). rewrite (bind_ok _ _ _ tt (b ++ e ++ rest)) by apply char_hit.
  assert (Hr' : hn is_digit rest) by (revert Hr; apply hn_impl; intros x; unfold lit_char; lia).
  assert (He' : hn is_digit (e ++ rest)) by (destruct He as [|e s' neg' d [-> | ->] _ _ _]; [exact Hr'|reflexivity|reflexivity]).
  rewrite (bind_ok _ _ _ b (e ++ rest)) by (apply digits_complete; assumption).
  rewrite (bind_ok _ _ _ (match e with [] => None | _ => Some e end) rest).
  - rewrite Es. clear -Hf. match goal with |- context [parse_f64 ?X] => replace (parse_f64 X) with (Some f) by (symmetry; destruct e; exact Hf) end. reflexivity.
  - destruct He as [|e s' neg' d Hee Hs' Hd Hd'].
    + apply opt_back. apply bind_back. destruct rest as [|x rest]; [reflexivity|]. cbn in *. assert ((x =? 101) || (x =? 69) = false) as -> by (unfold lit_char in Hr; lia). reflexivity.
    + rewrite <- !app_assoc. destruct (sign_complete s' neg' (d ++ rest) Hs' (digit_head _ _ Hd Hd')) as (o' & Eo' & Es' & _).
      destruct Hee as [-> | ->]; cbn [app w map String.list_ascii_of_string]; apply opt_ok; (erewrite bind_ok by reflexivity; rewrite (bind_ok _ _ _ _ _ Eo'); rewrite (bind_ok _ _ _ d rest) by (apply cut_ok, digits_complete; assumption); rewrite Es'; reflexivity).
Qed.
Lemma int_complete s (neg : bool) d v z rest : wsign s neg -> Digits d v -> d <> [] -> z = (if neg then - Z.of_N v else Z.of_N v)%Z -> (- 2 ^ 127 <= z < 2 ^ 127)%Z -> hn lit_char rest ->
  parse_float parse_f64 (s ++ d ++ rest) = PBack /\ parse_int (s ++ d ++ rest) = POk z rest.
Proof.
  intros Hs Hd Hne Hz Hr Hl. apply digits_iff in Hd as [Hd Hv]. destruct (sign_complete s neg (d ++ rest) Hs (digit_head _ _ Hd Hne)) as (o & Eo & Es & En).
  assert (Hr' : hn is_digit rest) by (revert Hl; apply hn_impl; intros x; unfold lit_char; lia).
  split.
  - unfold parse_float. rewrite (bind_ok _ _ _ _ _ Eo). rewrite (bind_ok _ _ _ d rest) by (apply digits_complete; assumption). apply bind_back. destruct rest as [|x rest]; [reflexivity|]. cbn in Hl. apply char_miss. unfold lit_char in Hl. lia.
  - unfold parse_int. rewrite (bind_ok _ _ _ _ _ Eo). rewrite (bind_ok _ _ _ d rest) by (apply digits_complete; assumption). unfold int_value.
    assert (Ez : match o with Some c => if c =? 45 then (- Z.of_N (dec_value d))%Z else Z.of_N (dec_value d) | None => Z.of_N (dec_value d) end = z) by (subst z v neg; destruct o as [c|]; [destruct (c =? 45)|]; reflexivity).
    rewrite Ez. assert ((- 2 ^ 127 <=? z)%Z && (z <? 2 ^ 127)%Z = true) as -> by (apply andb_true_iff; split; [apply Z.leb_le|apply Z.ltb_lt]; apply Hr). reflexivity.
Qed.
Lemma literal_complete s l rest : wlit parse_f64 s l -> hn lit_char rest -> parse_literal parse_f64 (s ++ rest) = POk l rest.
Proof.
  intros H Hr. unfold parse_literal. destruct H as [| |s neg d v z Hs Hd Hne Hz Hzr|s neg a b e f Hs Ha Ha' Hb Hb' He Hf|s v Hs|s l x t Hs].
  - reflexivity.
  - reflexivity.
  - rewrite <- app_assoc. destruct (int_complete s neg d v z rest Hs Hd Hne Hz Hzr Hr) as [H1 H2]. apply digits_iff in Hd as [Hd _]. destruct (num_head s neg d rest Hs Hd Hne) as (c & q & E & Hc & E1 & E2 & _).
    rewrite (bind_ok _ _ _ c (s ++ d ++ rest)) by (rewrite E; reflexivity). rewrite E1, E2, Hc. apply cut_ok. rewrite alt_back by (unfold pmap; apply bind_back, H1). apply map_ok, H2.
  - rewrite <- !app_assoc. pose proof (float_complete s neg a b e f rest Hs Ha Ha' Hb Hb' He Hf Hr) as H1. destruct (num_head s neg a (w "." ++ b ++ e ++ rest) Hs Ha Ha') as (c & q & E & Hc & E1 & E2 & _).
    rewrite (bind_ok _ _ _ c (s ++ a ++ w "." ++ b ++ e ++ rest)) by (rewrite E; reflexivity). rewrite E1, E2, Hc. apply cut_ok, alt_ok, map_ok, H1.
  - rewrite (bind_ok _ _ _ 34 ([34] ++ (s ++ [34]) ++ rest)) by (rewrite <- !app_assoc; reflexivity). cbn [N.eqb Pos.eqb is_sign is_digit orb andb N.leb N.compare]. apply map_ok. rewrite <- !app_assoc. apply string_complete, Hs.
  - assert (E : exists q, s = 91 :: q) by (remember (Punct l x t) as p; destruct Hs; eexists; reflexivity). destruct E as [q E]. rewrite (bind_ok _ _ _ 91 (s ++ rest)) by (rewrite E; reflexivity). change (91 =? 116) with false. cbv iota. change (is_sign 91 || is_digit 91) with false. change (91 =? 102) with false. change (91 =? 34) with false. change (91 =? 91) with true. cbv iota.
    apply map_ok. eapply bytes_complete. exact Hs.
Qed.
Lemma wlit_head s (l : lit F) : wlit parse_f64 s l -> exists c t, s = c :: t /\ is_mspace c = false.
Proof.
  intros H. destruct H as [| |s neg d v z Hs Hd Hne Hz Hzr|s neg a b e f Hs Ha Ha' Hb Hb' He Hf|s v Hs|s l x t Hs].
  - eexists; eexists; split; reflexivity.
  - eexists; eexists; split; reflexivity.
  - apply digits_iff in Hd as [Hd _]. destruct (num_head s neg d [] Hs Hd Hne) as (c & q & E & _ & _ & _ & Hc). rewrite app_nil_r in E. eauto.
  - destruct (num_head s neg a (w "." ++ b ++ e) Hs Ha Ha') as (c & q & E & _ & _ & _ & Hc). eauto.
  - eexists; eexists; split; reflexivity.
  - remember (Punct l x t) as p. destruct Hs. eexists; eexists; split; reflexivity.
Qed.

(** * Attributes *)
Lemma stop_lit c rest : c = 41 \/ c = 93 -> stop c rest -> hn lit_char rest.
Proof. intros Hc. apply stop_hn; [|reflexivity|destruct Hc as [-> | ->]; reflexivity]. intros x. unfold lit_char, is_digit, is_mspace. lia. Qed.
Lemma stop_lower c rest : c = 41 \/ c = 93 -> stop c rest -> hn lower_tail rest.
Proof. intros Hc. apply stop_hn; [|reflexivity|destruct Hc as [-> | ->]; reflexivity]. intros x. unfold lower_tail, is_lower, is_digit, is_mspace. lia. Qed.
Lemma stop_paren c rest : c = 41 \/ c = 93 -> stop c rest -> char 40 rest = PBack.
Proof.
  intros Hc (b & x & r & -> & Hb & Hx). destruct b as [|y b]; cbn [app]; apply char_miss; [destruct Hx as [-> | ->]; [discriminate|destruct Hc as [-> | ->]; discriminate]|]. apply white_char in Hb. unfold is_mspace in Hb. lia.
Qed.
Lemma stop_equals c rest : c = 41 \/ c = 93 -> stop c rest -> parse_single_value parse_f64 rest = PBack.
Proof.
  intros Hc (b & x & r & -> & Hb & Hx). assert (Hxm : is_mspace x = false) by (destruct Hx as [-> | ->]; [reflexivity|destruct Hc as [-> | ->]; reflexivity]).
  destruct (space0_white b x r Hb Hxm) as (b1 & b2 & -> & Hb1 & Es & _). unfold parse_single_value. rewrite (bind_ok _ _ _ _ _ Es). apply bind_back.
  destruct b2 as [|y b2]; cbn [app]; apply char_miss; [destruct Hx as [-> | ->]; [discriminate|destruct Hc as [-> | ->]; discriminate]|]. apply white_tail, white_char in Hb. unfold is_mspace in Hb. lia.
Qed.
(** A comma separated list of attributes, an optional comma, white space and a closing character. *)
Definition vcomplete (n : nat) (pv : parser (attr_value F)) : Prop := forall nm sv v c rest, (length sv < n)%nat -> c = 41 \/ c = 93 -> LowerName nm -> wattr parse_f64 (nm ++ sv) (Attr nm v) -> stop c rest ->
  hn lower_tail (sv ++ rest) /\ pv (sv ++ rest) = POk v rest.
Lemma wattr_split s a : wattr parse_f64 s a -> exists nm sv v, s = nm ++ sv /\ a = Attr nm v /\ LowerName nm.
Proof. intros [nm Hn|nm b1 b2 s' v Hn Hb1 Hb2 Hs|nm s' l cm b Hn Hs Hc Hb]; [exists nm, [], AUnit; rewrite app_nil_r; auto|eexists; eexists; eexists; split; [reflexivity|]; auto..]. Qed.
Lemma attr_list_complete n pv s l cm b c r : vcomplete n pv -> (length s <= n)%nat -> c = 41 \/ c = 93 -> wseparated (behind (wattr parse_f64)) s l -> wcomma cm -> White b ->
  (pdo l <- attr_list pv; ws (char c) ;; pret l) (s ++ cm ++ b ++ c :: r) = POk l r.
Proof.
  intros Hv Hl Hc Hs Hcm Hb. assert (Hcs : is_mspace c = false /\ c <> 44) by (destruct Hc as [-> | ->]; split; (reflexivity || discriminate)). destruct Hcs as [Hcs Hc44].
  assert (Hst : stop c (cm ++ b ++ c :: r)) by (destruct Hcm; [exists b, c, r; auto|exists [], 44, (b ++ c :: r); split; [reflexivity|split; [constructor|auto]]]).
  assert (Hsp : forall b' r', White b' -> ws (pdo n <- lower_name; pdo v <- pv; pret (Attr n v)) (b' ++ c :: r') = PBack).
  { intros b' r' Hb'. rewrite ws_ok; [|apply white_sp, Hb'|exact Hcs]. apply bind_back. destruct Hc as [-> | ->]; reflexivity. }
  assert (Hwc : ws comma (b ++ c :: r) = PBack) by (rewrite ws_ok; [apply char_miss, Hc44|apply white_sp, Hb|exact Hcs]).
  unfold attr_list. rewrite (bind_ok _ _ _ l (b ++ c :: r)); [rewrite (bind_ok _ _ _ tt r); [reflexivity|]; rewrite ws_ok; [apply char_hit|apply white_sp, Hb|exact Hcs]|].
  rewrite (bind_ok _ _ _ l (cm ++ b ++ c :: r)).
  - destruct Hcm; [|reflexivity]. cbn [app]. rewrite (bind_ok _ _ _ None (b ++ c :: r)); [reflexivity|]. apply opt_back. destruct b as [|y b]; cbn [app]; apply char_miss; [exact Hc44|]. apply white_char in Hb. unfold is_mspace in Hb. lia.
  - apply (separated_complete _ (behind (wattr parse_f64)) n c); [|exact Hs|exact Hl|exact Hst|].
    + intros s' a rest Hl' Hs' Hst'. destruct Hs' as [b' s'' a Hb' Ha]. rewrite app_length in Hl'. destruct (wattr_split _ _ Ha) as (nm & sv & v & -> & -> & Hn). rewrite <- !app_assoc. destruct (lower_head nm Hn) as (x & t & En & Hx).
      rewrite ws_ok; [|apply white_sp, Hb'|rewrite En; cbn; unfold lower, is_mspace in *; lia]. rewrite app_length in Hl'.
      destruct (Hv nm sv v c rest) as [H1 H2]; [rewrite En in Hl'; cbn in Hl'; lia|exact Hc|exact Hn|exact Ha|exact Hst'|].
      rewrite (bind_ok _ _ _ nm (sv ++ rest)) by (apply lower_name_ok; assumption). rewrite (bind_ok _ _ _ _ _ H2). reflexivity.
    + destruct Hcm; cbn [app]; [apply bind_back, Hwc|]. rewrite (bind_ok _ _ _ tt (b ++ c :: r)); [apply Hsp, Hb|]. reflexivity.
Qed.
Lemma value_complete n : vcomplete n (parse_value parse_f64 n).
Proof.
  induction n as [|n IH]; intros nm sv v c rest Hl Hc Hn Ha Hst; [lia|]. cbn [parse_value].
  remember (nm ++ sv) as s0 eqn:Es. remember (Attr nm v) as a0 eqn:Ea. destruct Ha as [nm' Hn'|nm' b1 b2 s l Hn' Hb1 Hb2 Hs|nm' s l cm b Hn' Hs Hcm Hb]; assert (nm' = nm) as -> by congruence.
  - assert (v = AUnit) as -> by congruence. assert (sv = []) as -> by (destruct sv as [|x sv]; [reflexivity|]; apply (f_equal (@length N)) in Es; rewrite app_length in Es; cbn in Es; lia).
    cbn [app]. split; [apply (stop_lower c); assumption|]. rewrite alt_back by (apply bind_back, (stop_paren c); assumption). rewrite alt_back by (unfold pmap; apply bind_back, (stop_equals c); assumption). reflexivity.
  - assert (v = ASingle l) as -> by congruence. apply app_inv_head in Es as <-. rewrite <- !app_assoc. split; [apply blank_hn; [exact Hb1|reflexivity|reflexivity|reflexivity]|].
    rewrite alt_back. 2:{ apply bind_back. destruct b1 as [|y b1]; cbn [app]; [reflexivity|]. inversion Hb1; subst. apply char_miss. lia. }
    apply alt_ok, map_ok. unfold parse_single_value. rewrite (bind_ok _ _ _ tt (w "=" ++ b2 ++ s ++ rest)) by (apply space0_complete; [exact Hb1|reflexivity]). rewrite (bind_ok _ _ _ tt (b2 ++ s ++ rest)) by apply char_hit.
    rewrite (bind_ok _ _ _ tt (s ++ rest)); [apply literal_complete; [exact Hs|apply (stop_lit c); assumption]|]. apply space0_complete; [exact Hb2|]. destruct (wlit_head _ _ Hs) as (x & t & -> & Hx). cbn. unfold is_mspace, is_space in *. lia.
  - assert (v = AMulti l) as -> by congruence. apply app_inv_head in Es as <-. rewrite <- !app_assoc. split; [reflexivity|]. apply alt_ok. rewrite (bind_ok _ _ _ tt (s ++ cm ++ b ++ w ")" ++ rest)) by apply char_hit. apply map_ok, cut_ok.
    rewrite !app_length in Hl. cbn in Hl. apply (attr_list_complete n); try assumption; [lia|auto].
Qed.
Lemma pvalue_complete n : vcomplete n (pvalue parse_f64).
Proof.
  intros nm sv v c rest _ Hc Hn Ha Hst. unfold pvalue. apply (value_complete (S (length (sv ++ rest))) nm sv v c rest); try assumption. rewrite app_length. lia.
Qed.
Lemma attr_line_complete s l r : wattr_line parse_f64 s l -> (pdo l <- parse_attribute parse_f64; char 10 ;; pret l) (s ++ r) = POk l r.
Proof.
  intros [s' l' cm b Hs Hcm Hb]. rewrite <- !app_assoc. rewrite (bind_ok _ _ _ l' ([10] ++ r)); [reflexivity|]. unfold parse_attribute.
  rewrite (bind_ok _ _ _ tt (w "[" ++ s' ++ cm ++ b ++ w "]" ++ [10] ++ r)) by reflexivity. rewrite (bind_ok _ _ _ tt (s' ++ cm ++ b ++ w "]" ++ [10] ++ r)) by apply char_hit. apply cut_ok.
  apply (attr_list_complete (length s')); try assumption; [apply pvalue_complete|lia|auto].
Qed.
Lemma attributes_complete s l rest : wattrs parse_f64 s l -> hn (fun c => c =? 35) rest -> attributes parse_f64 (s ++ rest) = POk l rest.
Proof.
  intros [s' ll H] Hr. unfold attributes. apply map_ok. apply repeat_chain. induction H as [|s1 a t l1 Hs Ht IH].
  - constructor. apply bind_back. unfold parse_attribute. apply bind_back. destruct rest as [|x rest]; [reflexivity|]. cbn in *. rewrite Hr. reflexivity.
  - rewrite <- app_assoc. apply chain_cons with (r := t ++ rest); [apply attr_line_complete, Hs| |exact IH]. destruct Hs. rewrite !app_length. cbn. lia.
Qed.

(** * Definitions *)
Lemma ws_skip {A} (p : parser A) b i : White b -> ws p (b ++ i) = ws p i.
Proof.
  intros Hb. destruct (span_split is_mspace i) as (a & r & _ & -> & Ha & Hr). rewrite app_assoc, (ws_ok p (b ++ a)); [rewrite ws_ok; [reflexivity|exact Ha|exact Hr]| |exact Hr]. apply sp_app; [apply white_sp, Hb|exact Ha].
Qed.
Lemma definition_skip n b i : White b -> parse_definition parse_f64 n (b ++ i) = parse_definition parse_f64 n i.
Proof. intros Hb. destruct n as [|n]; [reflexivity|]. cbn [parse_definition]. unfold pbind at 1. rewrite ws_skip by exact Hb. reflexivity. Qed.
Lemma ws_definition n i : ws (parse_definition parse_f64 n) i = parse_definition parse_f64 n i.
Proof.
  destruct (span_split is_mspace i) as (a & r & _ & -> & Ha & Hr). rewrite ws_ok; [|exact Ha|exact Hr]. symmetry. apply definition_skip, white_b, Ha.
Qed.
Definition dispatch (n : nat) : parser (pdef F) :=
  pdo k <- peek_any;
  if k =? 109 then parse_module (parse_definition parse_f64 n)
  else if k =? 115 then parse_struct
  else if k =? 101 then parse_enum
  else if k =? 99 then parse_const parse_f64
  else if k =? 116 then parse_alias
  else if k =? 117 then parse_import
  else pfail.
Lemma head_complete n sh c a k t : whead parse_f64 sh c a -> lower k ->
  parse_definition parse_f64 (S n) (sh ++ k :: t) = (pdo d <- dispatch n; pret (with_attributes a (with_comment c d))) (k :: t).
Proof.
  intros [b1 sc c' b2 sa a' b3 Hb1 Hc Hb2 Ha Hb3] Hk. rewrite <- !app_assoc. cbn [parse_definition]. change (_ ;; pdo d <- _; _) with (space0 ;; pdo d <- dispatch n; pret (with_attributes a' (with_comment c' d))) || idtac.
  assert (Hkm : is_mspace k = false) by (unfold lower, is_mspace in *; lia). assert (Hks : hn is_space (k :: t)) by (cbn; unfold lower, is_space in *; lia).
  assert (Hend : forall b', Blank b' -> (space0 ;; pdo d <- dispatch n; pret (with_attributes a' (with_comment c' d))) (b' ++ k :: t) = (pdo d <- dispatch n; pret (with_attributes a' (with_comment c' d))) (k :: t)).
  { intros b' Hb'. rewrite (bind_ok _ _ _ tt (k :: t)) by (apply space0_complete; assumption). reflexivity. }
  inversion Ha as [s l Hl E1 E2]; subst. inversion Hl as [|s a0 rest l0 Hs Hrest E1 E2]; subst.
  - cbn [app concat]. rewrite (app_assoc b2). destruct (comments_complete b1 sc c' (b2 ++ b3) k t Hb1 Hc (white_app _ _ Hb2 (blank_white _ Hb3)) Hkm ltac:(unfold lower in Hk; lia)) as (b0 & b' & Eb & Ec).
    rewrite (bind_ok _ _ _ _ _ Ec). rewrite (bind_ok _ _ _ [] (k :: t)); [apply (Hend []); constructor|]. rewrite ws_ok; [|apply white_sp; eapply white_tail; rewrite <- Eb; apply white_app; [exact Hb2|apply blank_white, Hb3]|exact Hkm].
    apply (attributes_complete [] [] (k :: t)); [apply (wattrs_intro parse_f64 [] []); constructor|]. cbn. unfold lower in Hk. lia.
  - assert (Eh : exists q, (s ++ rest) ++ b3 ++ k :: t = 35 :: q) by (destruct Hs; eexists; reflexivity). destruct Eh as [q Eq]. rewrite <- app_assoc in Eq. rewrite <- !app_assoc. 
    destruct (comments_complete b1 sc c' b2 35 q Hb1 Hc Hb2 eq_refl ltac:(discriminate)) as (b0 & b' & Eb & Ec). rewrite Eq. rewrite (bind_ok _ _ _ _ _ Ec). rewrite <- Eq, (app_assoc s).
    rewrite (bind_ok _ _ _ (concat (a0 :: l0)) (b3 ++ k :: t)); [apply Hend, Hb3|]. rewrite ws_ok; [|apply white_sp; eapply white_tail; rewrite <- Eb; exact Hb2|rewrite <- app_assoc, Eq; reflexivity].
    apply attributes_complete; [exact Ha|]. apply blank_hn; [exact Hb3|reflexivity|reflexivity|]. cbn. unfold lower in Hk. lia.
Qed.
(** What follows a struct without fields is not taken for its fields. *)
Definition clean (after : str) : Prop := forall b x r, after = b ++ x :: r -> White b -> is_mspace x = false -> x <> 123 /\ x <> 40 /\ x <> 60.
Lemma keyword_split k s : wkeyword k s -> exists b, s = k ++ b /\ Blank b /\ b <> [].
Proof. intros [b Hb Hne]. eauto. Qed.
Lemma space1_complete b r : Blank b -> b <> [] -> hn is_space r -> space1 (b ++ r) = POk tt r.
Proof. intros Hb Hne Hr. apply space1_ok; [apply blank_space, Hb|exact Hr|]. destruct b; [contradiction|cbn; lia]. Qed.
Lemma upper_space n r : TypeName n -> hn is_space (n ++ r).
Proof. intros H. destruct (upper_head n H) as (x & t & -> & Hx). cbn. unfold upper, is_space in *. lia. Qed.
Lemma lower_space n r : LowerName n -> hn is_space (n ++ r).
Proof. intros H. destruct (lower_head n H) as (x & t & -> & Hx). cbn. unfold lower, is_space in *. lia. Qed.
Lemma generics_head sg g r (f : N -> bool) : wgenerics sg g -> f 60 = false -> hn f r -> hn f (sg ++ r).
Proof. intros [|s p [body b p' _ _]] Hf Hr; [exact Hr|exact Hf]. Qed.

Lemma struct_body n g fs k sg X r : Blank k -> k <> [] -> TypeName n -> wgenerics sg g -> hn is_alnum (sg ++ X) -> hn (fun c => c =? 60) X ->
  (space0 ;; parse_fields) X = POk fs r -> parse_struct (w "struct" ++ k ++ n ++ sg ++ X) = POk (@PStruct F [] [] n g fs) r.
Proof.
  intros Hk Hk' Hn Hg H1 H2 Hf. unfold parse_struct. rewrite (bind_ok _ _ _ tt (k ++ n ++ sg ++ X)) by apply (tag_app (tx "struct")).
  rewrite (bind_ok _ _ _ tt (n ++ sg ++ X)) by (apply space1_complete; [exact Hk|exact Hk'|apply upper_space, Hn]). apply cut_ok.
  rewrite (bind_ok _ _ _ n (sg ++ X)) by (apply type_name_ok; assumption). rewrite (bind_ok _ _ _ g X) by (apply generics_complete; assumption).
  apply bind_inv in Hf as (u & j & E1 & E2). destruct u. rewrite (bind_ok _ _ _ _ _ E1), (bind_ok _ _ _ _ _ E2). reflexivity.
Qed.
Lemma enum_body n g vs k sg b sv r : Blank k -> k <> [] -> TypeName n -> wgenerics sg g -> Blank b -> wenclosed wvariant [123] [125] sv vs ->
  parse_enum (w "enum" ++ k ++ n ++ sg ++ b ++ sv ++ r) = POk (@PEnum F [] [] n g vs) r.
Proof.
  intros Hk Hk' Hn Hg Hb Hv. assert (Eh : exists q, sv = 123 :: q) by (destruct Hv; eexists; reflexivity). destruct Eh as [q Eq].
  assert (HX : forall f : N -> bool, f 32 = false -> f 9 = false -> f 123 = false -> hn f (b ++ sv ++ r)) by (intros f H1 H2 H3; apply blank_hn; [exact Hb|exact H1|exact H2|rewrite Eq; exact H3]).
  unfold parse_enum. rewrite (bind_ok _ _ _ tt (k ++ n ++ sg ++ b ++ sv ++ r)) by apply (tag_app (tx "enum")).
  rewrite (bind_ok _ _ _ tt (n ++ sg ++ b ++ sv ++ r)) by (apply space1_complete; [exact Hk|exact Hk'|apply upper_space, Hn]). apply cut_ok.
  rewrite (bind_ok _ _ _ n (sg ++ b ++ sv ++ r)) by (apply type_name_ok; [exact Hn|apply (generics_head sg g); [exact Hg|reflexivity|apply HX; reflexivity]]).
  rewrite (bind_ok _ _ _ g (b ++ sv ++ r)) by (apply generics_complete; [exact Hg|apply HX; reflexivity]).
  rewrite (bind_ok _ _ _ tt (sv ++ r)) by (apply space0_complete; [exact Hb|rewrite Eq; reflexivity]). rewrite (bind_ok _ _ _ vs r) by (apply variants_complete, Hv). reflexivity.
Qed.
Lemma wtype_space s t r : wtype s t -> hn is_space (s ++ r).
Proof. intros H. destruct (wtype_ms _ _ H) as (x & q & -> & Hx). cbn. unfold is_mspace, is_space in *. lia. Qed.
Lemma blank_tstop b r : Blank b -> hn tstop r -> hn tstop (b ++ r).
Proof. intros Hb. apply white_stop, blank_white, Hb. Qed.
Lemma alias_body n g t k sg b1 b2 st b3 r : Blank k -> k <> [] -> TypeName n -> wgenerics sg g -> Blank b1 -> Blank b2 -> wtype st t -> Blank b3 ->
  parse_alias (w "type" ++ k ++ n ++ sg ++ b1 ++ w "=" ++ b2 ++ st ++ b3 ++ w ";" ++ r) = POk (@PAlias F [] n g t) r.
Proof.
  intros Hk Hk' Hn Hg Hb1 Hb2 Ht Hb3.
  unfold parse_alias. rewrite (bind_ok _ _ _ tt (k ++ n ++ sg ++ b1 ++ w "=" ++ b2 ++ st ++ b3 ++ w ";" ++ r)) by apply (tag_app (tx "type")).
  rewrite (bind_ok _ _ _ tt (n ++ sg ++ b1 ++ w "=" ++ b2 ++ st ++ b3 ++ w ";" ++ r)) by (apply space1_complete; [exact Hk|exact Hk'|apply upper_space, Hn]). apply cut_ok.
  rewrite (bind_ok _ _ _ n (sg ++ b1 ++ w "=" ++ b2 ++ st ++ b3 ++ w ";" ++ r)) by (apply type_name_ok; [exact Hn|apply (generics_head sg g); [exact Hg|reflexivity|apply blank_hn; [exact Hb1|reflexivity..]]]).
  rewrite (bind_ok _ _ _ g (b1 ++ w "=" ++ b2 ++ st ++ b3 ++ w ";" ++ r)) by (apply generics_complete; [exact Hg|apply blank_hn; [exact Hb1|reflexivity..]]).
  rewrite (bind_ok _ _ _ tt (w "=" ++ b2 ++ st ++ b3 ++ w ";" ++ r)) by (apply space0_complete; [exact Hb1|reflexivity]). rewrite (bind_ok _ _ _ tt (b2 ++ st ++ b3 ++ w ";" ++ r)) by apply char_hit.
  rewrite (bind_ok _ _ _ tt (st ++ b3 ++ w ";" ++ r)) by (apply space0_complete; [exact Hb2|apply (wtype_space st t), Ht]).
  rewrite (bind_ok _ _ _ t (b3 ++ w ";" ++ r)) by (apply ptype_complete; [exact Ht|apply blank_tstop; [exact Hb3|reflexivity]]).
  rewrite (bind_ok _ _ _ tt (w ";" ++ r)) by (apply space0_complete; [exact Hb3|reflexivity]). reflexivity.
Qed.
Lemma const_body n t v k b1 st b2 b3 sv r : Blank k -> k <> [] -> ConstName n -> Blank b1 -> wtype st t -> Blank b2 -> Blank b3 -> wlit parse_f64 sv v ->
  parse_const parse_f64 (w "const" ++ k ++ n ++ w ":" ++ b1 ++ st ++ b2 ++ w "=" ++ b3 ++ sv ++ w ";" ++ r) = POk (PConst [] n t v) r.
Proof.
  intros Hk Hk' Hn Hb1 Ht Hb2 Hb3 Hv.
  unfold parse_const. rewrite (bind_ok _ _ _ tt (k ++ n ++ w ":" ++ b1 ++ st ++ b2 ++ w "=" ++ b3 ++ sv ++ w ";" ++ r)) by apply (tag_app (tx "const")).
  rewrite (bind_ok _ _ _ tt (n ++ w ":" ++ b1 ++ st ++ b2 ++ w "=" ++ b3 ++ sv ++ w ";" ++ r)).
  2:{ apply space1_complete; [exact Hk|exact Hk'|]. destruct Hn as (x & q & -> & Hx & _). cbn. unfold upper, is_space in *. lia. }
  apply cut_ok. rewrite (bind_ok _ _ _ n (w ":" ++ b1 ++ st ++ b2 ++ w "=" ++ b3 ++ sv ++ w ";" ++ r)) by (apply const_name_ok; [exact Hn|reflexivity]).
  rewrite (bind_ok _ _ _ tt (b1 ++ st ++ b2 ++ w "=" ++ b3 ++ sv ++ w ";" ++ r)) by apply char_hit. rewrite (bind_ok _ _ _ tt (st ++ b2 ++ w "=" ++ b3 ++ sv ++ w ";" ++ r)) by (apply space0_complete; [exact Hb1|apply (wtype_space st t), Ht]).
  rewrite (bind_ok _ _ _ t (b2 ++ w "=" ++ b3 ++ sv ++ w ";" ++ r)) by (apply ptype_complete; [exact Ht|apply blank_tstop; [exact Hb2|reflexivity]]).
  rewrite (bind_ok _ _ _ tt (w "=" ++ b3 ++ sv ++ w ";" ++ r)) by (apply space0_complete; [exact Hb2|reflexivity]). rewrite (bind_ok _ _ _ tt (b3 ++ sv ++ w ";" ++ r)) by apply char_hit.
  rewrite (bind_ok _ _ _ tt (sv ++ w ";" ++ r)).
  2:{ apply space0_complete; [exact Hb3|]. destruct (wlit_head _ _ Hv) as (x & q & -> & Hx). cbn. unfold is_mspace, is_space in *. lia. }
  rewrite (bind_ok _ _ _ v (w ";" ++ r)) by (apply literal_complete; [exact Hv|reflexivity]). reflexivity.
Qed.
Lemma segments_chain (segs : list str) r : Forall LowerName segs -> hn lower_tail r -> (tag (tx "::") ;; lower_name) r = PBack ->
  chain (tag (tx "::") ;; lower_name) (concat (map (fun s => w "::" ++ s) segs) ++ r) segs r /\ hn lower_tail (concat (map (fun s => w "::" ++ s) segs) ++ r).
Proof.
  intros H Hr Hend. induction H as [|x l Hx H [IH1 IH2]]; [split; [constructor; exact Hend|exact Hr]|]. cbn [map concat]. rewrite <- !app_assoc. split; [|reflexivity].
  eapply chain_cons; [|shelve|exact IH1].
  rewrite (bind_ok _ _ _ tt (x ++ concat (map (fun s => w "::" ++ s) l) ++ r)) by apply (tag_app (tx "::")). apply lower_name_ok; assumption.
  Unshelve. cbn. rewrite !app_length. lia.
Qed.
Lemma import_body segs el se k r : Blank k -> k <> [] -> segs <> [] -> Forall LowerName segs ->
  (el = None /\ se = [] \/ exists n, el = Some n /\ TypeName n /\ se = w "::" ++ n) ->
  parse_import (w "use" ++ k ++ segments_text segs ++ se ++ w ";" ++ r) = POk (@PImport F segs el) r.
Proof.
  intros Hk Hk' Hne Hl Hel. destruct segs as [|x segs]; [contradiction|]. inversion Hl; subst. cbn [segments_text]. rewrite <- !app_assoc. unfold parse_import.
  rewrite (bind_ok _ _ _ tt (k ++ x ++ concat (map (fun s => w "::" ++ s) segs) ++ se ++ w ";" ++ r)) by apply (tag_app (tx "use")).
  rewrite (bind_ok _ _ _ tt (x ++ concat (map (fun s => w "::" ++ s) segs) ++ se ++ w ";" ++ r)) by (apply space1_complete; [exact Hk|exact Hk'|apply lower_space; assumption]). apply cut_ok.
  assert (Hse : hn lower_tail (se ++ w ";" ++ r) /\ (tag (tx "::") ;; lower_name) (se ++ w ";" ++ r) = PBack /\ opt (tag (tx "::") ;; alt type_name type_name) (se ++ w ";" ++ r) = POk el (w ";" ++ r)).
  { destruct Hel as [[-> ->]|(n & -> & Hn & ->)]; [split; [reflexivity|]; split; reflexivity|]. rewrite <- !app_assoc. split; [reflexivity|]. split.
    - rewrite (bind_ok _ _ _ tt (n ++ w ";" ++ r)) by apply (tag_app (tx "::")). destruct (upper_head n Hn) as (y & t & -> & Hy). apply bind_back. cbn [app one_of]. assert (is_lower y = false) as -> by (unfold upper, is_lower in *; lia). reflexivity.
    - apply opt_ok. rewrite (bind_ok _ _ _ tt (n ++ w ";" ++ r)) by apply (tag_app (tx "::")). apply alt_ok, type_name_ok; [exact Hn|reflexivity]. }
  destruct Hse as (H1' & H2' & H3'). destruct (segments_chain segs (se ++ w ";" ++ r)) as [Hch Hhd]; [assumption..|].
  rewrite (bind_ok _ _ _ (x :: segs) (se ++ w ";" ++ r)).
  - rewrite (bind_ok _ _ _ _ _ H3'). reflexivity.
  - unfold separated1. rewrite (bind_ok _ _ _ x (concat (map (fun s => w "::" ++ s) segs) ++ se ++ w ";" ++ r)) by (apply lower_name_ok; assumption). rewrite (bind_ok _ _ _ segs (se ++ w ";" ++ r)) by (apply separated_chain, Hch). reflexivity.
Qed.

(** Leading blanks. *)
Lemma whead_trim sh c (a : list (attr F)) : whead parse_f64 sh c a -> exists b sh', sh = b ++ sh' /\ White b /\ whead parse_f64 sh' c a /\ match sh' with x :: _ => x = 47 \/ x = 35 | [] => True end.
Proof.
  intros [b1 sc c' b2 sa a' b3 Hb1 Hc Hb2 Ha Hb3]. pose proof Hc as Hc0. destruct Hc0 as [|s l t ls Hs Ht].
  - pose proof Ha as Ha0. destruct Ha0 as [s ll Hl]. destruct Hl as [|s l t ll Hs Ht].
    + exists (b1 ++ b2 ++ b3), []. split; [cbn [app]; rewrite app_nil_r; reflexivity|]. split; [repeat apply white_app; try assumption; apply blank_white, Hb3|]. split; [|exact I].
      apply (whead_intro parse_f64 [] [] [] [] [] [] []); try constructor. apply (wattrs_intro parse_f64 [] []). constructor.
    + exists (b1 ++ b2), ((s ++ t) ++ b3). split; [cbn [app]; rewrite <- !app_assoc; reflexivity|]. split; [apply white_app; assumption|]. split; [|destruct Hs; right; reflexivity].
      apply (whead_intro parse_f64 [] [] [] [] (s ++ t) (concat (l :: ll)) b3); [apply Forall_nil|exact Hc|apply Forall_nil|exact Ha|exact Hb3].
  - inversion Hs as [c1 c2 l' Hc1 Hc2 Hl E1 E2]; subst. exists (b1 ++ c1), (((w "///" ++ c2 ++ l ++ [10]) ++ t) ++ b2 ++ sa ++ b3). split; [rewrite <- !app_assoc; reflexivity|]. split; [apply white_app; [exact Hb1|apply blank_white, Hc1]|].
    split; [|left; reflexivity]. apply (whead_intro parse_f64 []); try assumption; [constructor|]. constructor; [|exact Ht]. apply (wline_intro []); [constructor|assumption|assumption].
Qed.
Definition kchar (x : N) : Prop := x = 47 \/ x = 35 \/ lower x.
Lemma wdef_trim s (d : pdef F) after : wdef parse_f64 s d after -> exists b x t, s = b ++ x :: t /\ White b /\ kchar x /\ wdef parse_f64 (x :: t) d after.
Proof.
  intros H.
  assert (Hgo : forall sh c a K, whead parse_f64 sh c a -> s = sh ++ K -> (exists k t, K = k :: t /\ lower k) -> (forall sh', whead parse_f64 sh' c a -> wdef parse_f64 (sh' ++ K) d after) ->
     exists b x t, s = b ++ x :: t /\ White b /\ kchar x /\ wdef parse_f64 (x :: t) d after).
  { intros sh c a K Hh -> (k & t & -> & Hk) HK. destruct (whead_trim _ _ _ Hh) as (b & sh' & -> & Hb & Hh' & Hx). destruct sh' as [|x sh'].
    - exists b, k, t. split; [rewrite app_nil_r; reflexivity|]. split; [exact Hb|]. split; [right; right; exact Hk|]. apply (HK [] Hh').
    - exists b, x, (sh' ++ k :: t). split; [rewrite <- app_assoc; reflexivity|]. split; [exact Hb|]. split; [destruct Hx; [left|right; left]; assumption|]. apply (HK (x :: sh') Hh'). }
  assert (Hkw : forall kw k X, wkeyword kw k -> (exists y z, kw = y :: z /\ lower y) -> exists y z, k ++ X = y :: z /\ lower y) by (intros kw k X [b _ _] (y & z & -> & Hy); exists y, ((z ++ b) ++ X); auto).
  destruct H; (eapply Hgo; [eassumption|reflexivity|eapply Hkw; [eassumption|eexists; eexists; split; [reflexivity|unfold lower; cbn; lia]]|intros sh' Hh']).
  - eapply wd_struct; eassumption.
  - eapply wd_unit_struct; eassumption.
  - eapply wd_enum; eassumption.
  - eapply wd_alias; eassumption.
  - eapply wd_const; eassumption.
  - eapply wd_import; eassumption.
  - eapply wd_module; eassumption.
Qed.
Lemma kchar_ms x : kchar x -> is_mspace x = false /\ x <> 123 /\ x <> 40 /\ x <> 60.
Proof. unfold kchar, lower, is_mspace. lia. Qed.
Lemma white_split b1 x1 t1 b2 x2 t2 : b1 ++ x1 :: t1 = b2 ++ x2 :: t2 -> White b1 -> White b2 -> is_mspace x1 = false -> is_mspace x2 = false -> b1 = b2 /\ x1 = x2 /\ t1 = t2.
Proof.
  revert b2. induction b1 as [|y b1 IH]; intros b2 E H1 H2 Hx1 Hx2; destruct b2 as [|z b2]; cbn in E.
  - repeat split; congruence.
  - assert (x1 = z) as -> by congruence. apply white_char in H2. congruence.
  - assert (y = x2) as -> by congruence. apply white_char in H1. congruence.
  - inversion H1; inversion H2; subst. assert (y = z /\ b1 ++ x1 :: t1 = b2 ++ x2 :: t2) as [-> E'] by (split; congruence). destruct (IH _ E') as (-> & -> & ->); auto.
Qed.
Lemma wdef_clean s (d : pdef F) after r : wdef parse_f64 s d after -> clean (s ++ r).
Proof.
  intros H. destruct (wdef_trim _ _ _ H) as (b & x & t & -> & Hb & Hx & _). intros b' y q E Hb' Hy. rewrite <- app_assoc in E. cbn [app] in E. destruct (kchar_ms _ Hx) as (Hxm & Hx1 & Hx2 & Hx3). destruct (white_split _ _ _ _ _ _ E) as (_ & <- & _); auto.
Qed.

Lemma wdefs_clean s (ds : list (pdef F)) after : wdefs parse_f64 s ds after -> clean after -> clean (s ++ after).
Proof. intros [a|s' d rest ds' a Hd _] Hc; [exact Hc|]. rewrite <- app_assoc. eapply wdef_clean, Hd. Qed.

Section Defs.
Variable p : parser (pdef F).
Variable n : nat.
Hypothesis Hp : forall s d after, (length s <= n)%nat -> wdef parse_f64 s d after -> clean after -> done p (s ++ after) d after.
Lemma defs_chain s ds after : wdefs parse_f64 s ds after -> clean after -> (length s <= n)%nat -> (forall b r, after = b ++ r -> Blank b -> p r = PBack) ->
  forall b0 i, Blank b0 -> b0 ++ i = s ++ after -> exists b r, after = b ++ r /\ Blank b /\ chain p i ds r.
Proof.
  revert s ds after. fix IH 4. intros s ds after H. destruct H as [after|s d rest ds after Hd Hs]; intros Hc Hl Hend b0 i Hb0 E.
  - cbn in E. exists b0, i. split; [auto|]. split; [exact Hb0|]. constructor. apply (Hend b0); auto.
  - destruct (wdef_trim _ _ _ Hd) as (b & x & t & Es & Hb & Hx & Hd'). subst s. rewrite <- !app_assoc in E. cbn [app] in E. destruct (kchar_ms _ Hx) as (Hxm & _).
    destruct (strip_white _ _ _ _ _ E Hb0 Hxm) as (b2 & Ei & Eb). subst i b. rewrite !app_length in Hl. cbn [length] in Hl.
    destruct (Hp (b2 ++ x :: t) d (rest ++ after)) as (b1 & r1 & E1 & Hb1 & Ep).
    + rewrite app_length. cbn [length]. lia.
    + apply wdef_prefix; [eapply white_tail, Hb|exact Hd'].
    + apply (wdefs_clean rest ds after Hs Hc).
    + destruct (IH rest ds after Hs Hc ltac:(lia) Hend b1 r1 Hb1 (eq_sym E1)) as (b3 & r3 & E3 & Hb3 & Hch). exists b3, r3. split; [exact E3|]. split; [exact Hb3|].
      apply chain_cons with (r := r1); [|shelve|exact Hch]. rewrite <- app_assoc in Ep. cbn [app] in Ep. exact Ep.
      Unshelve. assert (length (rest ++ after) = length (b1 ++ r1)) by (rewrite E1; reflexivity). rewrite !app_length in *. cbn [length]. rewrite !app_length. lia.
Qed.
End Defs.

Lemma unit_ends_extend g a r : unit_ends g a -> unit_ends g (a ++ r).
Proof. intros (b & x & t & -> & Hb & Hx & Hg). exists b, x, (t ++ r). rewrite <- app_assoc. auto. Qed.
Lemma wdef_extend s (d : pdef F) a r : wdef parse_f64 s d a -> wdef parse_f64 s d (a ++ r).
Proof. intros H. destruct H; econstructor; eauto. apply unit_ends_extend. assumption. Qed.
Lemma wdefs_extend s (ds : list (pdef F)) a : wdefs parse_f64 s ds a -> forall r, wdefs parse_f64 s ds (a ++ r).
Proof.
  revert s ds a. fix IH 4. intros s ds a H r. destruct H as [after|s d rest ds after Hd Hs]; constructor.
  - rewrite app_assoc. apply wdef_extend, Hd.
  - apply IH, Hs.
Qed.
Lemma definition_stop n b x r : White b -> is_mspace x = false -> x <> 47 -> x <> 35 -> ~ lower x -> parse_definition parse_f64 (S n) (b ++ x :: r) = PBack.
Proof.
  intros Hb Hx H1 H2 H3. rewrite definition_skip by exact Hb. cbn [parse_definition]. destruct (comments_complete [] [] [] [] x r) as (b0 & b' & Eb & Ec); try assumption; try constructor. destruct b0, b'; try discriminate. cbn [app] in Ec.
  rewrite (bind_ok _ _ _ _ _ Ec). rewrite (bind_ok _ _ _ [] (x :: r)).
  2:{ apply (ws_ok (attributes parse_f64) [] (x :: r)); [reflexivity|exact Hx] || (etransitivity; [apply (ws_ok (attributes parse_f64) [] (x :: r)); [reflexivity|exact Hx]|]).
      apply (attributes_complete [] [] (x :: r)); [apply (wattrs_intro parse_f64 [] []); constructor|]. cbn. lia. }
  rewrite (bind_ok _ _ _ tt (x :: r)) by (apply (space0_complete []); [constructor|cbn; unfold is_mspace, is_space in *; lia]).
  apply bind_back. rewrite (bind_ok _ _ _ x (x :: r)) by reflexivity. unfold lower in H3.
  repeat match goal with |- context [x =? ?k] => let E := fresh in destruct (x =? k) eqn:E; [lia|] end. reflexivity.
Qed.
Lemma definition_end n b : White b -> parse_definition parse_f64 (S n) b = PBack.
Proof.
  intros Hb. rewrite <- (app_nil_r b), definition_skip by exact Hb. reflexivity.
Qed.
Lemma def_via n sh c a K (d : pdef F) r : whead parse_f64 sh c a -> (exists k t, K = k :: t /\ lower k) -> dispatch n K = POk d r ->
  parse_definition parse_f64 (S n) (sh ++ K) = POk (with_attributes a (with_comment c d)) r.
Proof. intros Hh (k & t & -> & Hk) Hd. rewrite (head_complete n sh c a k t Hh Hk). rewrite (bind_ok _ _ _ d r Hd). reflexivity. Qed.
Ltac via Hh D r := apply (def_via _ _ _ _ _ D r Hh); [eexists; eexists; split; [reflexivity|unfold lower; cbn; lia]|].
(** What must not follow a struct without fields on the same line. *)
Definition bclean (after : str) : Prop := forall b x r, after = b ++ x :: r -> Blank b -> is_mspace x = false -> x <> 123 /\ x <> 40 /\ x <> 60.
Definition okafter (d : pdef F) (after : str) : Prop := match d with PStruct _ _ _ _ FUnit => bclean after | _ => True end.
Lemma clean_okafter d after : clean after -> okafter d after.
Proof.
  intros H. assert (Hb : bclean after) by (intros b x r E Hb Hx; exact (H b x r E (blank_white _ Hb) Hx)). unfold okafter. destruct d as [| c a n g fs | | | |]; try exact I. destruct fs; auto.
Qed.
Lemma def_complete_ok n : forall s d after, (length s <= n)%nat -> wdef parse_f64 s d after -> okafter d after -> done (parse_definition parse_f64 n) (s ++ after) d after.
Proof.
  induction n as [|n IH]; intros s d after Hl H Hc.
  - destruct (wdef_trim _ _ _ H) as (b & x & t & -> & _). rewrite app_length in Hl. cbn in Hl. lia.
  - destruct H as [sh c a k nm sg g b sf fs after Hh Hk Hn Hg Hb Hf Hfs|sh c a k nm sg g after Hh Hk Hn Hg Hu|sh c a k nm sg g b sv vs after Hh Hk Hn Hg Hb Hv|sh c a k nm sg g b1 b2 st t b3 after Hh Hk Hn Hg Hb1 Hb2 Ht Hb3|sh c a k nm b1 st t b2 b3 sv v after Hh Hk Hn Hb1 Ht Hb2 Hb3 Hv|sh c a k segs el se after Hh Hk Hne Hsg Hel|sh c a k nm b1 sd ds b2 after Hh Hk Hn Hb1 Hds Hb2];
    destruct (keyword_split _ _ Hk) as (kb & -> & Hkb & Hkb'); rewrite <- !app_assoc.
    + apply done_exact. via Hh (@PStruct F [] [] nm g fs) after.
      etransitivity; [reflexivity|]. destruct (fields_head _ _ Hf Hfs) as (x & q & Eq & Hx).
        assert (HX : forall f : N -> bool, f 32 = false -> f 9 = false -> f 123 = false -> f 40 = false -> hn f (b ++ sf ++ after)) by (intros f H1 H2 H3 H4; apply blank_hn; [exact Hb|exact H1|exact H2|rewrite Eq; cbn; destruct Hx as [-> | ->]; assumption]).
        apply (struct_body nm g fs kb sg (b ++ sf ++ after) after); try assumption.
        * apply (generics_head sg g); [exact Hg|reflexivity|apply HX; reflexivity].
        * apply HX; reflexivity.
        * rewrite (bind_ok _ _ _ tt (sf ++ after)) by (apply space0_complete; [exact Hb|rewrite Eq; cbn; destruct Hx as [-> | ->]; reflexivity]). apply fields_complete; assumption.
    + destruct Hu as (b & x & r & -> & Hb & Hx & Hg0). exists b, (x :: r). split; [reflexivity|]. split; [exact Hb|].
      via Hh (@PStruct F [] [] nm g FUnit) (x :: r).
      assert (Hxs : is_space x = false) by (unfold is_space; destruct ((x =? 32) || (x =? 9)) eqn:E; [destruct Hx; constructor; [lia|constructor]|reflexivity]).
      assert (Hxc : x <> 123 /\ x <> 40 /\ x <> 60) by (destruct (is_mspace x) eqn:Em; [unfold is_mspace in Em; lia|apply (Hc b x r); [reflexivity|exact Hb|exact Em]]). destruct Hxc as (Hx1 & Hx2 & Hx3).
      etransitivity; [reflexivity|]. apply (struct_body nm g FUnit kb sg (b ++ x :: r) (x :: r)); try assumption.
      * destruct Hg as [|sg' p' [body b' p'' _ _]]; [|reflexivity]. cbn [app]. destruct b as [|y b]; [|inversion Hb; subst; cbn; unfold is_alnum, is_lower, is_upper, is_digit; lia]. cbn. specialize (Hg0 eq_refl eq_refl). unfold lower, upper, digit in Hg0. unfold is_alnum, is_lower, is_upper, is_digit. lia.
      * apply blank_hn; [exact Hb|reflexivity..|]. cbn. lia.
      * rewrite (bind_ok _ _ _ tt (x :: r)) by (apply space0_complete; [exact Hb|exact Hxs]). apply fields_unit; assumption.
    + apply done_exact. via Hh (@PEnum F [] [] nm g vs) after. etransitivity; [reflexivity|]. apply enum_body; assumption.
    + apply done_exact. via Hh (@PAlias F [] nm g t) after. etransitivity; [reflexivity|]. apply alias_body; assumption.
    + apply done_exact. via Hh (@PConst F [] nm t v) after. etransitivity; [reflexivity|]. apply const_body; assumption.
    + apply done_exact. via Hh (@PImport F segs el) after. etransitivity; [reflexivity|]. apply import_body; assumption.
    + apply done_exact. via Hh (@PModule F [] nm ds) after. transitivity (parse_module (parse_definition parse_f64 n) (w "mod" ++ kb ++ nm ++ b1 ++ w "{" ++ sd ++ b2 ++ w "}" ++ after)); [reflexivity|].
      rewrite !app_length in Hl. change (length (w "{")) with 1%nat in Hl. change (length (w "mod")) with 3%nat in Hl.
      unfold parse_module. rewrite (bind_ok _ _ _ tt (kb ++ nm ++ b1 ++ w "{" ++ sd ++ b2 ++ w "}" ++ after)) by apply (tag_app (tx "mod")).
      rewrite (bind_ok _ _ _ tt (nm ++ b1 ++ w "{" ++ sd ++ b2 ++ w "}" ++ after)) by (apply space1_complete; [exact Hkb|exact Hkb'|apply lower_space, Hn]). apply cut_ok.
      rewrite (bind_ok _ _ _ nm (b1 ++ w "{" ++ sd ++ b2 ++ w "}" ++ after)) by (apply lower_name_ok; [exact Hn|apply blank_hn; [exact Hb1|reflexivity..]]).
      rewrite (bind_ok _ _ _ tt (w "{" ++ sd ++ b2 ++ w "}" ++ after)) by (apply space0_complete; [exact Hb1|reflexivity]).
      assert (Hn1 : exists m, n = S m) by (destruct kb; [contradiction|]; destruct n; [cbn [length] in Hl; lia|eauto]). destruct Hn1 as [m Em].
      destruct (defs_chain (ws (parse_definition parse_f64 n)) n) with (s := sd) (ds := ds) (after := b2 ++ w "}" ++ after) (b0 := @nil N) (i := sd ++ b2 ++ w "}" ++ after) as (b & r & E & Hb & Hch).
      * intros s d af Hls Hd Hca. destruct (IH s d af Hls Hd (clean_okafter d af Hca)) as (b & r & E & Hb & Hr). exists b, r. split; [exact E|]. split; [exact Hb|]. rewrite ws_definition. exact Hr.
      * rewrite app_assoc. apply wdefs_extend, Hds.
      * intros b x r E Hb Hx. destruct (white_split b2 125 after b x r E Hb2 Hb eq_refl Hx) as (_ & <- & _). repeat split; discriminate.
      * lia.
      * intros b r E Hb. rewrite ws_definition. destruct (strip_white b r b2 125 after (eq_sym E) Hb eq_refl) as (b3 & -> & ->). rewrite Em. apply definition_stop; [eapply white_tail, Hb2|reflexivity|discriminate|discriminate|unfold lower; lia].
      * constructor.
      * reflexivity.
      * destruct (strip_white b r b2 125 after (eq_sym E) Hb eq_refl) as (b3 & -> & ->). rewrite (bind_ok _ _ _ ds after); [reflexivity|]. apply (surround_complete 123 125 _ (sd ++ (b ++ b3) ++ w "}" ++ after) ds b3); [|eapply white_tail, Hb2|reflexivity]. apply repeat_chain, Hch.
Qed.
Lemma def_complete n s d after : (length s <= n)%nat -> wdef parse_f64 s d after -> clean after -> done (parse_definition parse_f64 n) (s ++ after) d after.
Proof. intros Hl H Hc. apply def_complete_ok; [exact Hl|exact H|exact (clean_okafter d after Hc)]. Qed.
Lemma defs_complete s ds b : wdefs parse_f64 s ds b -> White b -> exists b1 r, b = b1 ++ r /\ Blank b1 /\ repeat0 (pdefinition parse_f64) (s ++ b) = POk ds r.
Proof.
  intros H Hb. destruct (defs_chain (pdefinition parse_f64) (length s)) with (s := s) (ds := ds) (after := b) (b0 := @nil N) (i := s ++ b) as (b1 & r & E & Hb1 & Hch); try reflexivity.
  - intros s' d a _ Hd Hc. unfold pdefinition. apply (def_complete (S (length (s' ++ a))) s' d a); [rewrite app_length; lia|exact Hd|exact Hc].
  - exact H.
  - intros b' x r E Hb' Hx. subst b. apply Forall_app in Hb as [_ Hb]. apply white_char in Hb. congruence.
  - intros b' r E Hb'. unfold pdefinition. apply definition_end. rewrite E in Hb. eapply white_tail, Hb.
  - constructor.
  - exists b1, r. split; [exact E|]. split; [exact Hb1|]. apply repeat_chain, Hch.
Qed.
Lemma comment_line_break r : comment_line (10 :: r) = PBack.
Proof. reflexivity. Qed.
Lemma opening_complete so c rest : wopening so c -> (pdo c <- ws comments; char 10 ;; pret c) (so ++ rest) = POk c rest.
Proof.
  intros [b s c' Hb Hc Hne]. rewrite <- !app_assoc. rewrite (bind_ok _ _ _ c' ([10] ++ rest)); [reflexivity|]. rewrite ws_skip by exact Hb.
  pose proof Hc as Hc0. destruct Hc0 as [|s a t l Hs Ht]; [contradiction|]. destruct Hs as [c1 c2 l' Hc1 Hc2 Hl]. rewrite <- !app_assoc, ws_ok; [|apply white_sp, blank_white, Hc1|reflexivity].
  apply repeat_chain. change (w "///" ++ c2 ++ l' ++ [10] ++ t ++ [10] ++ rest) with ([] ++ w "///" ++ c2 ++ l' ++ [10] ++ t ++ [10] ++ rest).
  assert (E : [] ++ w "///" ++ c2 ++ l' ++ [10] ++ t ++ [10] ++ rest = (([] ++ w "///" ++ c2 ++ l' ++ [10]) ++ t) ++ 10 :: rest) by (cbn [app]; rewrite <- !app_assoc; reflexivity). rewrite E. apply lines_chain; [|apply comment_line_break].
  constructor; [|exact Ht]. apply (wline_intro []); [constructor|assumption|assumption].
Qed.
End Lit.
