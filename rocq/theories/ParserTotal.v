(** Every text: the parser terminates, never trips over winnow's assertion, and what it accepts
    is well formed. *)
From Verif Require Import Base Syntax Parser ParserSpec.
Require Coq.Strings.String.
Import Coq.Strings.String.StringSyntax.
Local Open Scope N_scope.

(** [spec k n P p]: on texts of at most [n] characters [p] neither panics nor runs out of fuel;
    when it succeeds it consumed a prefix of at least [k] characters and its result satisfies
    [P]. *)
Definition spec {A} (k n : nat) (P : A -> Prop) (p : parser A) : Prop :=
  forall i, text i -> (length i <= n)%nat ->
  match p i with
  | POk a r => (exists pre, i = pre ++ r /\ (k <= length pre)%nat) /\ P a
  | PBack | PCut => True
  | PBug | PFuel => False
  end.

Lemma text_app a b : text (a ++ b) <-> text a /\ text b.
Proof. apply Forall_app. Qed.

Section Combinators.
Context {A B : Type}.
Implicit Types (P : A -> Prop) (p q : parser A).

Lemma spec_weaken k k' n n' P (Q : A -> Prop) p :
  spec k n P p -> (k' <= k)%nat -> (n' <= n)%nat -> (forall a, P a -> Q a) -> spec k' n' Q p.
Proof.
  intros H Hk Hn HPQ i Ht Hl. specialize (H i Ht ltac:(lia)).
  destruct (p i) as [a r| | | |]; auto.
  destruct H as ((pre & -> & Hp) & Ha). split; [exists pre; split; [reflexivity|lia]|auto].
Qed.
Lemma spec_ret n P a : P a -> spec 0 n P (pret a).
Proof. intros H i _ _. cbn. split; [exists []; split; [reflexivity|cbn; lia]|exact H]. Qed.
Lemma spec_fail k n P : spec k n P (@pfail A).
Proof. intros i _ _. exact I. Qed.
Lemma spec_cut k n P p : spec k n P p -> spec k n P (cut_err p).
Proof. intros H i Ht Hl. specialize (H i Ht Hl). unfold cut_err. destruct (p i); auto. Qed.
Lemma spec_alt k n P p q : spec k n P p -> spec k n P q -> spec k n P (alt p q).
Proof.
  intros H1 H2 i Ht Hl. specialize (H1 i Ht Hl). specialize (H2 i Ht Hl). unfold alt. destruct (p i); auto.
Qed.
Lemma spec_opt k n P p :
  spec k n P p -> spec 0 n (fun o => match o with Some a => P a | None => True end) (opt p).
Proof.
  intros H i Ht Hl. specialize (H i Ht Hl). unfold opt. destruct (p i); auto.
  - destruct H as ((pre & -> & Hp) & Ha). split; [exists pre; split; [reflexivity|lia]|auto].
  - split; [exists []; split; [reflexivity|cbn; lia]|exact I].
Qed.
Lemma spec_bind k1 k2 k n P (Q : B -> Prop) p (f : A -> parser B) :
  spec k1 n P p -> (forall a, P a -> (k1 <= n)%nat -> spec k2 (n - k1) Q (f a)) -> (k <= k1 + k2)%nat ->
  spec k n Q (pbind p f).
Proof.
  intros H1 H2 Hk i Ht Hl. specialize (H1 i Ht Hl). unfold pbind. destruct (p i) as [a r| | | |]; auto.
  destruct H1 as ((pre & -> & Hp) & Ha). rewrite app_length in Hl.
  apply text_app in Ht as [Ht1 Ht2].
  specialize (H2 a Ha ltac:(lia) r Ht2 ltac:(lia)).
  destruct (f a r) as [b r'| | | |]; auto.
  destruct H2 as ((pre' & -> & Hp') & Hb). split; [|exact Hb].
  exists (pre ++ pre'). rewrite app_length, <- app_assoc. split; [reflexivity|lia].
Qed.

Lemma repeat_spec n P p fuel i :
  spec 1 n P p -> text i -> (length i <= n)%nat -> (length i < fuel)%nat ->
  match repeat_loop fuel p i with
  | POk l r => (exists pre, i = pre ++ r) /\ Forall P l
  | PBack | PCut => True
  | PBug | PFuel => False
  end.
Proof.
  intros Hp. revert i. induction fuel as [|fuel IH]; intros i Ht Hl Hf; [lia|].
  cbn [repeat_loop]. pose proof (Hp i Ht Hl) as H. destruct (p i) as [a r| | | |]; auto.
  - destruct H as ((pre & -> & Hpre) & Ha). rewrite app_length in *. apply text_app in Ht as [_ Ht].
    destruct (length r =? length pre + length r)%nat eqn:E; [apply Nat.eqb_eq in E; lia|].
    specialize (IH r Ht ltac:(lia) ltac:(lia)). destruct (repeat_loop fuel p r) as [l r'| | | |]; auto.
    destruct IH as ((pre' & ->) & Hl'). split; [|constructor; assumption].
    exists (pre ++ pre'). rewrite app_assoc. reflexivity.
  - split; [exists []; reflexivity|constructor].
Qed.
Lemma spec_repeat0 n P p : spec 1 n P p -> spec 0 n (Forall P) (repeat0 p).
Proof.
  intros Hp i Ht Hl. unfold repeat0. pose proof (repeat_spec n P p (S (length i)) i Hp Ht Hl ltac:(lia)) as H.
  destruct (repeat_loop _ p i); auto.
  destruct H as ((pre & ->) & Hl'). split; [|exact Hl']. exists pre; split; [reflexivity|lia].
Qed.
Lemma separated_spec n P p (sep : parser B) fuel i :
  spec 1 n P (sep ;; p) -> text i -> (length i <= n)%nat -> (length i < fuel)%nat ->
  match separated_loop fuel p sep i with
  | POk l r => (exists pre, i = pre ++ r) /\ Forall P l
  | PBack | PCut => True
  | PBug | PFuel => False
  end.
Proof.
  intros Hp. revert i. induction fuel as [|fuel IH]; intros i Ht Hl Hf; [lia|].
  cbn [separated_loop]. pose proof (Hp i Ht Hl) as H. destruct ((sep ;; p) i) as [a r| | | |]; auto.
  - destruct H as ((pre & -> & Hpre) & Ha). rewrite app_length in *. apply text_app in Ht as [_ Ht].
    destruct (length r =? length pre + length r)%nat eqn:E; [apply Nat.eqb_eq in E; lia|].
    specialize (IH r Ht ltac:(lia) ltac:(lia)). destruct (separated_loop fuel p sep r) as [l r'| | | |]; auto.
    destruct IH as ((pre' & ->) & Hl'). split; [|constructor; assumption].
    exists (pre ++ pre'). rewrite app_assoc. reflexivity.
  - split; [exists []; reflexivity|constructor].
Qed.
End Combinators.

Lemma spec_map {A B} k n (P : A -> Prop) (Q : B -> Prop) (f : A -> B) p :
  spec k n P p -> (forall a, P a -> Q (f a)) -> spec k n Q (pmap f p).
Proof.
  intros H HQ. unfold pmap. eapply spec_bind with (k2 := O); [exact H| |lia].
  intros a Ha _. apply spec_ret. auto.
Qed.
Lemma spec_separated1 {A B} k n (P : A -> Prop) (Q : B -> Prop) p sep :
  spec k n P p -> spec 1 n Q sep -> spec k n (fun l => Forall P l /\ l <> []) (separated1 p sep).
Proof.
  intros Hp Hs. unfold separated1. eapply spec_bind with (k2 := O); [exact Hp| |lia].
  intros a Ha _. eapply (spec_bind 0 0) with (P := Forall P); [| |lia].
  - intros i Ht Hl.
    assert (H1 : spec 1 n P (sep ;; p)).
    { eapply (spec_bind 1 0); [exact Hs| |lia]. intros b _ _. eapply spec_weaken; [exact Hp|lia|lia|auto]. }
    pose proof (separated_spec n P p sep (S (length i)) i H1 Ht ltac:(lia) ltac:(lia)) as H.
    destruct (separated_loop _ p sep i); auto.
    destruct H as ((pre & ->) & Hl'). split; [|exact Hl']. exists pre; split; [reflexivity|lia].
  - intros l Hl _. apply spec_ret. split; [constructor; assumption|discriminate].
Qed.

(** Characters. *)
Lemma spec_peek n : spec 0 n (fun c => True) peek_any.
Proof.
  intros [|c i] Ht Hl; cbn; [exact I|]. split; [|exact I]. exists []. split; [reflexivity|cbn; lia].
Qed.
Lemma spec_one_of n f : spec 1 n (fun c => f c = true /\ scalar c) (one_of f).
Proof.
  intros [|c i] Ht Hl; cbn; [exact I|]. destruct (f c) eqn:E; [|exact I].
  split; [exists [c]; split; [reflexivity|cbn; lia]|]. inversion Ht; auto.
Qed.
Lemma spec_char n c : spec 1 n (fun _ => True) (char c).
Proof.
  intros [|x i] Ht Hl; cbn; [exact I|]. destruct (x =? c) eqn:E; [|exact I].
  split; [exists [x]; split; [reflexivity|cbn; lia]|exact I].
Qed.
Lemma spec_tag n s : spec (length s) n (fun _ => True) (tag s).
Proof.
  revert n. induction s as [|c s IH]; intros n i Ht Hl; cbn [tag length].
  - split; [exists []; split; [reflexivity|cbn; lia]|exact I].
  - destruct i as [|x i]; [exact I|]. destruct (x =? c) eqn:E; [|exact I].
    inversion Ht as [|? ? Hx Ht']; subst. cbn in Hl. specialize (IH n i Ht' ltac:(lia)).
    destruct (tag s i) as [a r| | | |]; auto.
    destruct IH as ((pre & -> & Hp) & _). split; [|exact I]. exists (x :: pre). split; [reflexivity|cbn; lia].
Qed.
Lemma span_split f i : exists a r, span f i = (a, r) /\ i = a ++ r /\ forallb f a = true
  /\ match r with c :: _ => f c = false | [] => True end.
Proof.
  induction i as [|c i IH]; cbn [span]; [exists [], []; auto|].
  destruct (f c) eqn:E.
  - destruct IH as (a & r & -> & -> & Ha & Hr). exists (c :: a), r. cbn. rewrite E, Ha. auto.
  - exists [], (c :: i). auto.
Qed.
Lemma spec_take_while n min f :
  spec min n (fun a => forallb f a = true /\ text a /\ (min <= length a)%nat) (take_while min f).
Proof.
  intros i Ht Hl. unfold take_while. destruct (span_split f i) as (a & r & -> & -> & Ha & _).
  destruct (length a <? min)%nat eqn:E; [exact I|]. apply Nat.ltb_ge in E.
  apply text_app in Ht as [Ht _].
  split; [exists a; split; [reflexivity|exact E]|]. auto.
Qed.
Lemma span_max_split m f i : exists a r, span_max m f i = (a, r) /\ i = a ++ r /\ forallb f a = true
  /\ (length a <= m)%nat.
Proof.
  revert i. induction m as [|m IH]; intros i; cbn [span_max]; [exists [], i; auto|].
  destruct i as [|c i]; [exists [], []; cbn; repeat split; lia|].
  destruct (f c) eqn:E.
  - destruct (IH i) as (a & r & -> & -> & Ha & Hr). exists (c :: a), r. cbn. rewrite E, Ha. repeat split; lia.
  - exists [], (c :: i). cbn. repeat split; lia.
Qed.
Lemma spec_take_between n m f :
  spec 1 n (fun a => forallb f a = true /\ (length a <= m)%nat) (take_between m f).
Proof.
  intros i Ht Hl. unfold take_between. destruct (span_max_split m f i) as (a & r & -> & -> & Ha & Hm).
  destruct a as [|c a]; [exact I|].
  split; [exists (c :: a); split; [reflexivity|cbn; lia]|]. auto.
Qed.

Lemma spec_space0 n : spec 0 n (fun _ => True) space0.
Proof. unfold space0. eapply spec_map; [apply spec_take_while|auto]. Qed.
Lemma spec_space1 n : spec 1 n (fun _ => True) space1.
Proof. unfold space1. eapply spec_map; [apply spec_take_while|auto]. Qed.
Lemma spec_multispace0 n : spec 0 n (fun _ => True) multispace0.
Proof. unfold multispace0. eapply spec_map; [apply spec_take_while|auto]. Qed.
Lemma spec_multispace1 n : spec 1 n (fun _ => True) multispace1.
Proof. unfold multispace1. eapply spec_map; [apply spec_take_while|auto]. Qed.
Lemma spec_ws {A} k n (P : A -> Prop) p : spec k n P p -> spec k n P (ws p).
Proof.
  intros H. unfold ws. eapply (spec_bind 0 k); [apply spec_multispace0| |lia].
  intros _ _ _. rewrite Nat.sub_0_r. exact H.
Qed.

(** Classes. *)
Ltac cls := cbn beta in *; unfold lower_tail, is_alnum in *; unfold is_lower, is_upper, is_digit, is_alnum, lower_tail, lower, upper, digit, underscore in *;
  repeat match goal with
         | H : (_ || _)%bool = true |- _ => apply orb_true_iff in H as [H|H]
         | H : (_ && _)%bool = true |- _ => apply andb_true_iff in H as [? H]
         | H : (_ <=? _) = true |- _ => apply N.leb_le in H
         | H : (_ =? _) = true |- _ => apply N.eqb_eq in H
         end; lia.
Lemma named_ident n (f g : N -> bool) (first more : N -> Prop) :
  (forall c, f c = true -> first c) -> (forall c, g c = true -> more c) ->
  spec 1 n (named first more) (ident f g).
Proof.
  intros Hf Hg. unfold ident. eapply (spec_bind 1 0); [apply spec_one_of| |lia].
  intros c (Hc & _) _. eapply (spec_bind 0 0); [apply (spec_take_while _ 0)| |lia].
  intros r (Hr & _) _. apply spec_ret. exists c, r. split; [reflexivity|]. split; [auto|].
  apply Forall_forall. intros x Hx. apply Hg. rewrite forallb_forall in Hr. auto.
Qed.
Lemma spec_type_name n : spec 1 n TypeName type_name.
Proof. apply named_ident; intros c H; cls. Qed.
Lemma spec_lower_name n : spec 1 n LowerName lower_name.
Proof. apply named_ident; intros c H; cls. Qed.
Lemma spec_const_name n : spec 1 n ConstName const_name.
Proof. apply named_ident; intros c H; cls. Qed.
Lemma spec_external_name n : spec 1 n RefName external_name.
Proof. apply named_ident; intros c H; cls. Qed.

Lemma spec_dec_uint n max : spec 1 n (fun v => v <= max) (dec_uint max).
Proof.
  intros [|c i] Ht Hl; cbn [dec_uint]; [exact I|].
  destruct ((49 <=? c) && (c <=? 57)).
  - destruct (span_split is_digit i) as (d & r & -> & -> & Hd & _).
    destruct (dec_value (c :: d) <=? max) eqn:E; [|exact I].
    split; [exists (c :: d); split; [reflexivity|cbn; lia]|apply N.leb_le, E].
  - destruct (c =? 48); [|exact I]. split; [exists [c]; split; [reflexivity|cbn; lia]|lia].
Qed.

(** Lists with punctuation. *)
Lemma Forall_removelast {A} (P : A -> Prop) l : Forall P l -> Forall P (removelast l).
Proof.
  intros H. apply Forall_forall. intros x Hx. rewrite Forall_forall in H. apply H.
  clear H. induction l as [|a l IH]; [destruct Hx|]. destruct l; [destruct Hx|].
  destruct Hx as [<-|Hx]; [left; reflexivity|right; apply IH, Hx].
Qed.
Lemma punct_spec {A} n k (P : A -> Prop) f g (i0 : str) fuel acc prev i :
  spec 1 n P f -> spec k n (fun x => P (fst x)) g -> text i0 -> (length i0 <= n)%nat ->
  (exists pre, i0 = pre ++ i) ->
  match prev with Some s => exists pre, i0 = pre ++ s | None => True end ->
  Forall P acc -> (length i < fuel)%nat ->
  match punct_loop fuel f g acc prev i with
  | POk p r => (exists pre, i0 = pre ++ r /\ (k <= length pre)%nat) /\ Forall P (p_values p)
  | PBack | PCut => True
  | PBug | PFuel => False
  end.
Proof.
  intros Hf Hg Ht Hl. revert acc prev i.
  induction fuel as [|fuel IH]; intros acc prev i (pre & Hi) Hprev Hacc Hfu; [lia|].
  cbn [punct_loop].
  assert (Hti : text i) by (rewrite Hi in Ht; apply text_app in Ht; apply Ht).
  assert (Hli : (length i <= n)%nat) by (rewrite Hi, app_length in Hl; lia).
  pose proof (Hf i Hti Hli) as H. destruct (f i) as [a r| | | |]; auto.
  - destruct H as ((pre' & Hr & Hp') & Ha).
    destruct (length r =? length i)%nat eqn:E; [apply Nat.eqb_eq in E; rewrite Hr, app_length in E; lia|].
    apply IH.
    + exists (pre ++ pre'). rewrite <- app_assoc, <- Hr. exact Hi.
    + exists pre. exact Hi.
    + apply Forall_app; auto.
    + rewrite Hr, app_length in Hfu. lia.
  - pose proof (Hg i Hti Hli) as H'. destruct (g i) as [[a t] r| | | |]; auto.
    + destruct H' as ((pre' & -> & Hp') & Ha). split.
      * exists (pre ++ pre'). rewrite <- app_assoc, app_length. split; [exact Hi|lia].
      * unfold p_values. cbn. apply Forall_app; auto.
    + destruct prev as [s|]; [|exact I]. destruct Hprev as (pres & Hs).
      assert (Hts : text s) by (rewrite Hs in Ht; apply text_app in Ht; apply Ht).
      assert (Hls : (length s <= n)%nat) by (rewrite Hs, app_length in Hl; lia).
      pose proof (Hg s Hts Hls) as H2. destruct (g s) as [[a t] r| | | |]; auto.
      destruct H2 as ((pre' & -> & Hp') & Ha). split.
      * exists (pres ++ pre'). rewrite <- app_assoc, app_length. split; [exact Hs|lia].
      * unfold p_values. cbn. apply Forall_app. split; [apply Forall_removelast, Hacc|auto].
Qed.
Lemma spec_comma n : spec 1 n (fun _ => True) comma.
Proof. apply spec_char. Qed.
Lemma spec_punctuated {A} k n (P : A -> Prop) e :
  spec k n P e -> spec k n (fun p => Forall P (p_values p)) (punctuated e).
Proof.
  intros He i Ht Hl. unfold punctuated, punctuate.
  apply (punct_spec n k P _ _ i); auto.
  - eapply (spec_bind k 1); [exact He| |lia]. intros a Ha _.
    eapply (spec_bind 1 0); [apply spec_ws, spec_comma| |lia]. intros _ _ _. apply spec_ret, Ha.
  - eapply (spec_bind k 0); [exact He| |lia]. intros a Ha _.
    eapply (spec_bind 0 0); [eapply spec_opt, spec_ws, spec_comma| |lia]. intros t _ _. apply spec_ret, Ha.
  - exists []. reflexivity.
Qed.
Lemma spec_surround {A} n (P : A -> Prop) o c p :
  ((1 <= n)%nat -> spec 0 (n - 1) P p) -> spec 2 n P (surround o c p).
Proof.
  intros Hp. unfold surround. eapply (spec_bind 1 1); [apply spec_char| |lia]. intros _ _ Hn.
  apply spec_cut. eapply (spec_bind 0 1); [apply Hp, Hn| |lia]. intros a Ha _.
  eapply (spec_bind 1 0); [apply spec_ws, spec_char| |lia]. intros _ _ _. apply spec_ret, Ha.
Qed.

(** * Types *)
Definition TyGood (t : pty) : Prop := TypeOk t /\ NoShadow t.
Lemma tys_good (l : list pty) x :
  Forall TyGood (l ++ [x]) ->
  (fold_right (fun t P => TypeOk t /\ P) True l /\ TypeOk x)
  /\ (fold_right (fun t P => NoShadow t /\ P) True l /\ NoShadow x).
Proof.
  intros H. apply Forall_app in H as [H Hx]. inversion Hx as [|? ? [Hx1 Hx2] _]; subst.
  assert (fold_right (fun t P => TypeOk t /\ P) True l /\ fold_right (fun t P => NoShadow t /\ P) True l)
    as [H1 H2].
  { induction H as [|y l [Hy1 Hy2] Hl IH]; cbn; tauto. }
  auto.
Qed.

Lemma spec_basic n : spec 2 n TyGood parse_basic.
Proof.
  unfold parse_basic. apply spec_alt; [|apply spec_alt].
  - eapply (spec_bind 2 0); [apply spec_take_while| |lia]. intros k _ _.
    destruct (basic_keyword k); [apply spec_ret; split; exact I|apply spec_fail].
  - eapply (spec_bind 11 0); [apply (spec_tag _ (tx "box<string>"))| |lia].
    intros _ _ _. apply spec_ret. split; exact I.
  - eapply (spec_bind 10 0); [apply (spec_tag _ (tx "box<bytes>"))| |lia].
    intros _ _ _. apply spec_ret. split; exact I.
Qed.

Section TypeStep.
Variable p : parser pty.
Variable n : nat.
Hypothesis Hp : (1 <= n)%nat -> spec 1 (n - 1) TyGood p.

Lemma Hp' m : (1 <= n)%nat -> (m < n)%nat -> spec 1 m TyGood p.
Proof. intros H1 H2. eapply spec_weaken; [apply Hp, H1|lia|lia|auto]. Qed.

Lemma spec_single mk m : (m <= n)%nat -> (forall t, TyGood t -> TyGood (mk t)) ->
  spec 2 m TyGood (parse_single mk p).
Proof.
  intros Hm Hmk. apply spec_cut. eapply spec_map; [|exact Hmk].
  apply spec_surround. intros H1. eapply spec_weaken; [apply (Hp' (m - 1)); lia|lia|lia|auto].
Qed.
Lemma spec_pair m : (m <= n)%nat -> spec 2 m TyGood (parse_pair p).
Proof.
  intros Hm. apply spec_cut. apply spec_surround. intros H1.
  eapply (spec_bind 1 0); [apply (Hp' (m - 1)); lia| |lia]. intros k Hk _.
  eapply (spec_bind 0 0); [apply spec_space0| |lia]. intros _ _ _.
  eapply (spec_bind 1 0); [apply spec_comma| |lia]. intros _ _ _.
  eapply (spec_bind 0 0); [apply spec_space0| |lia]. intros _ _ _.
  eapply (spec_bind 1 0); [apply Hp'; lia| |lia]. intros v Hv _.
  apply spec_ret. destruct Hk, Hv. split; cbn; auto.
Qed.
Lemma spec_generic : spec 3 n TyGood (parse_generic p).
Proof.
  unfold parse_generic. eapply (spec_bind 3 0); [apply spec_take_while| |lia]. intros k _ Hn.
  assert (Hs : forall mk, (forall t, TyGood t -> TyGood (mk t)) -> spec 0 (n - 3) TyGood (parse_single mk p))
    by (intros mk Hmk; eapply spec_weaken; [apply (spec_single mk (n - 3)); [lia|exact Hmk]|lia|lia|auto]).
  destruct (str_eqb k (tx "vec")); [apply Hs; auto|].
  destruct (str_eqb k (tx "hash_map")); [eapply spec_weaken; [apply (spec_pair (n - 3)); lia|lia|lia|auto]|].
  destruct (str_eqb k (tx "hash_set")); [apply Hs; auto|].
  destruct (str_eqb k (tx "option")); [apply Hs; auto|].
  destruct (str_eqb k (tx "non_zero")); [apply Hs; auto|].
  apply spec_fail.
Qed.
Lemma spec_tuple : spec 2 n TyGood (parse_tuple p).
Proof.
  unfold parse_tuple. eapply spec_map; [apply spec_surround; intros H1; eapply spec_weaken;
    [apply (spec_punctuated 1 (n - 1)), spec_ws, Hp, H1|lia|lia|intros a Ha; exact Ha]|].
  intros [l x b] H. cbn beta in H. unfold p_values in H; cbn [p_init p_last] in H.
  apply tys_good in H as [H1 H2]. split; assumption.
Qed.
Lemma spec_array : spec 2 n TyGood (parse_array p).
Proof.
  unfold parse_array. apply spec_surround. intros H1.
  eapply (spec_bind 1 0); [apply spec_ws, Hp, H1| |lia]. intros t Ht _.
  eapply (spec_bind 1 0); [apply spec_ws, spec_char| |lia]. intros _ _ _.
  eapply (spec_bind 1 0); [apply spec_ws, spec_dec_uint| |lia]. intros v Hv _.
  cbn beta in Hv. apply spec_ret. destruct Ht. split; cbn [TypeOk NoShadow]; [split; [assumption|lia]|assumption].
Qed.
Definition ExtGood (t : pty) : Prop := TypeOk t /\
  match t with
  | PExternal path name (Some (Punct l x _)) => fold_right (fun t P => NoShadow t /\ P) True l /\ NoShadow x
  | PExternal _ _ None => True
  | _ => False
  end.
Lemma spec_external : spec 1 n ExtGood (parse_external p).
Proof.
  unfold parse_external.
  eapply (spec_bind 0 1) with (P := fun o => match o with Some l => Forall LowerName l | None => True end);
    [|intros path Hpath _|lia].
  { apply spec_opt with (k := 1%nat). unfold repeat1.
    assert (Hs : spec 1 n LowerName (pdo s <- lower_name; tag (tx "::") ;; pret s)).
    { eapply (spec_bind 1 0); [apply spec_lower_name| |lia]. intros s Hs _.
      eapply (spec_bind 2 0); [apply (spec_tag _ (tx "::"))| |lia]. intros _ _ _. apply spec_ret, Hs. }
    eapply (spec_bind 1 0); [exact Hs| |lia]. intros s Hs1 _.
    eapply (spec_bind 0 0); [apply spec_repeat0; eapply spec_weaken; [exact Hs|lia|lia|intros a Ha; exact Ha]| |lia].
    intros l Hl _. apply spec_ret. constructor; assumption. }
  eapply (spec_bind 1 0); [apply spec_external_name| |lia]. intros name Hname Hn.
  eapply (spec_bind 0 0); [eapply spec_opt, spec_surround; intros H1; eapply spec_weaken;
    [apply (spec_punctuated 1), spec_ws, Hp'; [lia|]|lia|apply le_n|intros a Ha; exact Ha]| |lia].
  { lia. }
  intros gs Hgs _. apply spec_ret. split; cbn [TypeOk].
  - split; [destruct path; [exact Hpath|constructor]|]. split; [exact Hname|].
    destruct gs as [[l x b]|]; [|exact I]. unfold p_values in Hgs; cbn [p_init p_last] in Hgs.
    apply tys_good in Hgs as [H1 H2]. exact H1.
  - destruct gs as [[l x b]|]; [|exact I]. unfold p_values in Hgs; cbn [p_init p_last] in Hgs.
    apply tys_good in Hgs as [H1 H2]. exact H2.
Qed.
End TypeStep.

(** A path that starts with a shadowed segment is not reached. *)
Lemma lower_name_inv i s r : lower_name i = POk s r ->
  i = s ++ r /\ LowerName s.
Proof.
  intros H. unfold lower_name, ident, pbind in H. destruct i as [|c i]; [discriminate|].
  cbn [one_of] in H. destruct (is_lower c) eqn:E; [|discriminate].
  unfold take_while in H. destruct (span_split lower_tail i) as (a & r' & Hs & -> & Ha & _).
  rewrite Hs in H. cbn in H. injection H as <- <-. split; [reflexivity|].
  exists c, a. split; [reflexivity|]. split; [cls|]. apply Forall_forall. intros x Hx.
  rewrite forallb_forall in Ha. specialize (Ha x Hx). cls.
Qed.
Lemma tag_inv s i r : tag s i = POk tt r -> i = s ++ r.
Proof.
  revert i. induction s as [|c s IH]; intros i H; cbn in H; [injection H as ->; reflexivity|].
  destruct i as [|x i]; [discriminate|]. destruct (x =? c) eqn:E; [|discriminate].
  apply N.eqb_eq in E as ->. cbn. f_equal. auto.
Qed.
Lemma external_path p i s path name gs r :
  parse_external p i = POk (PExternal (s :: path) name gs) r ->
  LowerName s /\ exists i', i = s ++ 58 :: 58 :: i'.
Proof.
  unfold parse_external, pbind at 1. unfold opt at 1, repeat1.
  unfold pbind at 1. unfold pbind at 1.
  destruct (lower_name i) as [s' r1| | | |] eqn:E1; try discriminate.
  2:{ unfold pbind. destruct (external_name i); try discriminate. destruct (opt _ _); discriminate. }
  unfold pbind at 1. destruct (tag (tx "::") r1) as [[] r2| | | |] eqn:E2; try discriminate.
  2:{ unfold pbind. destruct (external_name i); try discriminate. destruct (opt _ _); discriminate. }
  cbn [pret]. unfold pbind at 1. destruct (repeat0 _ r2) as [l r3| | | |]; try discriminate.
  2:{ unfold pbind. destruct (external_name i); try discriminate. destruct (opt _ _); discriminate. }
  cbn [pret]. unfold pbind. destruct (external_name r3); try discriminate. destruct (opt _ _); try discriminate.
  intros H. injection H as <- _ _ _ _. apply lower_name_inv in E1 as [-> Hs]. apply tag_inv in E2 as ->.
  split; [exact Hs|]. exists r2. reflexivity.
Qed.
Lemma span_app f a r : forallb f a = true -> match r with c :: _ => f c = false | [] => True end ->
  span f (a ++ r) = (a, r).
Proof.
  intros Ha Hr. induction a as [|c a IH]; cbn in *.
  - destruct r as [|c r]; [reflexivity|]. cbn. rewrite Hr. reflexivity.
  - apply andb_true_iff in Ha as [-> Ha]. rewrite IH by exact Ha. reflexivity.
Qed.
Lemma shadowed_basic_or_generic p s i' :
  LowerName s -> Shadowed s ->
  parse_basic (s ++ 58 :: 58 :: i') <> PBack \/ parse_generic p (s ++ 58 :: 58 :: i') <> PBack.
Proof.
  intros Hs (word & r & -> & [[Hw Hr]|[Hw Hr]]).
  - left. unfold parse_basic, alt. unfold pbind at 1. unfold take_while. rewrite <- app_assoc.
    assert (Hr' : match r ++ 58 :: 58 :: i' with c :: _ => basic_char c = false | [] => True end).
    { destruct Hr as [->|(c & r' & -> & Hc)]; [reflexivity|]. cbn. unfold underscore in Hc. subst c. reflexivity. }
    cbn [In basic_words] in Hw.
    repeat (destruct Hw as [<-|Hw]; [rewrite span_app by (try exact Hr'; reflexivity); cbn; discriminate|]).
    destruct Hw.
  - right. unfold parse_generic. unfold pbind at 1. unfold take_while. rewrite <- app_assoc.
    assert (Hr' : match r ++ 58 :: 58 :: i' with c :: _ => generic_char c = false | [] => True end).
    { destruct Hr as [->|(c & r' & -> & Hc)]; [reflexivity|]. cbn [app]. unfold generic_char, is_lower.
      unfold digit in Hc. apply orb_false_iff. rewrite andb_false_iff, N.leb_gt, N.eqb_neq. lia. }
    assert (Hcut : forall A (q : parser A) j, cut_err q j <> PBack)
      by (intros A q j; unfold cut_err; destruct (q j); discriminate).
    cbn [In generic_words] in Hw.
    repeat (destruct Hw as [<-|Hw]; [rewrite span_app by (try exact Hr'; reflexivity);
      match goal with |- context [if (length ?x <? 3)%nat then _ else _] => change (length x <? 3)%nat with false end;
      cbv iota;
      repeat match goal with |- context [str_eqb ?x ?y] =>
        let b := eval vm_compute in (str_eqb x y) in change (str_eqb x y) with b end; cbv iota; apply Hcut|]).
    destruct Hw.
Qed.

Lemma spec_type n : forall m, (m < n)%nat -> spec 1 m TyGood (parse_type n).
Proof.
  induction n as [|n IH]; [lia|]. intros m Hm i Ht Hl. cbn [parse_type].
  assert (Hp : (1 <= m)%nat -> spec 1 (m - 1) TyGood (parse_type n)) by (intros H; apply IH; lia).
  unfold alt. pose proof (spec_basic m i Ht Hl) as H1.
  destruct (parse_basic i) eqn:Eb; [destruct H1 as ((pre & Hi & Hpre) & Ha); split; [exists pre; split; [exact Hi|lia]|exact Ha]| |exact I|exact H1|exact H1]. clear H1.
  pose proof (spec_generic _ m Hp i Ht Hl) as H1.
  destruct (parse_generic (parse_type n) i) eqn:Eg; [destruct H1 as ((pre & Hi & Hpre) & Ha); split; [exists pre; split; [exact Hi|lia]|exact Ha]| |exact I|exact H1|exact H1]. clear H1.
  pose proof (spec_tuple _ m Hp i Ht Hl) as H1.
  destruct (parse_tuple (parse_type n) i) eqn:Et; [destruct H1 as ((pre & Hi & Hpre) & Ha); split; [exists pre; split; [exact Hi|lia]|exact Ha]| |exact I|exact H1|exact H1]. clear H1.
  pose proof (spec_array _ m Hp i Ht Hl) as H1.
  destruct (parse_array (parse_type n) i) eqn:Ea; [destruct H1 as ((pre & Hi & Hpre) & Ha); split; [exists pre; split; [exact Hi|lia]|exact Ha]| |exact I|exact H1|exact H1]. clear H1.
  pose proof (spec_external _ m Hp i Ht Hl) as H1.
  destruct (parse_external (parse_type n) i) as [t r| | | |] eqn:Ee; auto.
  destruct H1 as (Hpre & Hok & Hns). split; [exact Hpre|]. split; [exact Hok|].
  destruct t; try contradiction. cbn [NoShadow].
  assert (Hhead : match path with s :: _ => ~ Shadowed s | [] => True end).
  { destruct path as [|s path]; [exact I|]. intros Hsh. apply external_path in Ee as (Hs & i' & ->).
    destruct (shadowed_basic_or_generic (parse_type n) s i' Hs Hsh); contradiction. }
  destruct generics as [[l x b]|]; auto.
Qed.
Lemma spec_ptype n : spec 1 n TyGood ptype.
Proof. intros i Ht Hl. unfold ptype. exact (spec_type (S (length i)) (length i) ltac:(lia) i Ht (le_n _)). Qed.

(** * Fields *)
Lemma spec_id n : spec 2 n (fun v => v < 2 ^ 32) parse_id.
Proof.
  unfold parse_id. eapply (spec_bind 1 1); [apply spec_char| |lia]. intros _ _ _.
  eapply spec_weaken; [apply spec_dec_uint|lia|apply le_n|]. cbn beta. intros a Ha. lia.
Qed.
Lemma spec_opt_id n : spec 0 n IdOk (opt (space0 ;; parse_id)).
Proof.
  eapply spec_weaken; [eapply spec_opt, (spec_bind 0 2); [apply spec_space0|intros _ _ _; apply spec_id|apply le_n]|lia|apply le_n|].
  intros [v|] H; exact H.
Qed.
Lemma spec_comment_line n : spec 4 n LineOk comment_line.
Proof.
  intros i Ht Hl.
  assert (H : spec 4 n (fun l => ~ In 10 l) comment_line).
  { unfold comment_line. eapply (spec_bind 0 4); [apply spec_space0| |lia]. intros _ _ _.
    eapply (spec_bind 3 1); [apply (spec_tag _ (tx "///"))| |lia]. intros _ _ _.
    eapply (spec_bind 0 1); [apply spec_space0| |lia]. intros _ _ _.
    eapply (spec_bind 0 1); [apply (spec_take_while _ 0)| |lia]. intros l (Hl1 & _) _.
    eapply (spec_bind 1 0); [apply spec_char| |lia]. intros _ _ _. apply spec_ret.
    intros Hin. rewrite forallb_forall in Hl1. specialize (Hl1 _ Hin). discriminate. }
  specialize (H i Ht Hl). destruct (comment_line i) as [l r| | | |] eqn:E; auto.
  destruct H as (Hpre & Hn). split; [exact Hpre|]. split; [exact Hn|].
  unfold comment_line in E. unfold pbind at 1 in E. destruct (space0 i) as [[] r1| | | |]; try discriminate.
  unfold pbind at 1 in E. destruct (tag (tx "///") r1) as [[] r2| | | |]; try discriminate.
  unfold pbind at 1 in E. unfold space0 at 1, pmap, pbind at 1, take_while in E.
  destruct (span_split is_space r2) as (a & r3 & Hs & -> & _ & Hr3). rewrite Hs in E. cbn in E.
  unfold pbind at 1 in E. unfold take_till, take_while in E.
  destruct (span_split (fun c => negb (c =? 10)) r3) as (b & r4 & Hs' & -> & _ & _). rewrite Hs' in E. cbn in E.
  unfold pbind in E. destruct (char 10 r4) as [[] r5| | | |]; try discriminate. cbn in E. injection E as <- <-.
  destruct b as [|c b]; [exact I|]. cbn in Hr3. unfold is_space in Hr3. apply orb_false_iff in Hr3 as [H1 H2].
  apply N.eqb_neq in H1. apply N.eqb_neq in H2. auto.
Qed.
Lemma spec_comments n : spec 0 n (Forall LineOk) comments.
Proof. apply spec_repeat0. eapply spec_weaken; [apply spec_comment_line|lia|apply le_n|auto]. Qed.

Lemma spec_unnamed_field n : spec 1 n UFieldOk parse_unnamed_field.
Proof.
  unfold parse_unnamed_field. eapply (spec_bind 1 0); [apply spec_ws, spec_ptype| |lia]. intros t [Ht Ht'] _.
  eapply (spec_bind 0 0); [apply spec_opt_id| |lia]. intros i Hi _. apply spec_ret. repeat split; assumption.
Qed.
Lemma spec_named_field n : spec 3 n NFieldOk parse_named_field.
Proof.
  unfold parse_named_field. eapply (spec_bind 0 3); [apply spec_ws, spec_comments| |lia]. intros c Hc _.
  eapply (spec_bind 0 3); [apply spec_space0| |lia]. intros _ _ _.
  eapply (spec_bind 1 2); [apply spec_lower_name| |lia]. intros s Hs _.
  eapply (spec_bind 0 2); [apply spec_space0| |lia]. intros _ _ _.
  eapply (spec_bind 1 1); [apply spec_char| |lia]. intros _ _ _.
  eapply (spec_bind 0 1); [apply spec_space0| |lia]. intros _ _ _.
  eapply (spec_bind 1 0); [apply spec_ptype| |lia]. intros t [Ht Ht'] _.
  eapply (spec_bind 0 0); [apply spec_opt_id| |lia]. intros i Hi _. apply spec_ret.
  unfold NFieldOk. cbn. auto.
Qed.
Lemma spec_fields n : spec 0 n FieldsOk parse_fields.
Proof.
  unfold parse_fields. eapply (spec_bind 0 0); [apply spec_peek| |lia]. intros c _ _.
  destruct (c =? 123); [|destruct (c =? 40)].
  - eapply spec_weaken; [eapply spec_map; [apply spec_surround; intros _; eapply spec_weaken;
      [apply spec_punctuated, spec_named_field|lia|apply le_n|intros a Ha; exact Ha]|]|lia|apply le_n|intros a Ha; exact Ha].
    intros p Hp'. exact Hp'.
  - eapply spec_weaken; [eapply spec_map; [apply spec_surround; intros _; eapply spec_weaken;
      [apply spec_punctuated, spec_unnamed_field|lia|apply le_n|intros a Ha; exact Ha]|]|lia|apply le_n|intros a Ha; exact Ha].
    intros p Hp'. exact Hp'.
  - apply spec_ret. exact I.
Qed.
Lemma spec_generics n : spec 2 n (fun p => Forall TypeName (p_values p)) parse_generics.
Proof.
  apply spec_surround. intros _. eapply spec_weaken; [apply spec_punctuated, spec_ws, spec_type_name|lia|apply le_n|auto].
Qed.
Lemma spec_opt_generics n : spec 0 n GenericsOk (opt parse_generics).
Proof.
  eapply spec_weaken; [eapply spec_opt, spec_generics|lia|apply le_n|]. intros [p|] H; exact H.
Qed.
Lemma spec_variant n : spec 1 n VariantOk parse_variant.
Proof.
  unfold parse_variant. eapply (spec_bind 0 1); [apply spec_ws, spec_comments| |lia]. intros c Hc _.
  eapply (spec_bind 0 1); [apply spec_space0| |lia]. intros _ _ _.
  eapply (spec_bind 1 0); [apply spec_type_name| |lia]. intros s Hs _.
  eapply (spec_bind 0 0); [apply spec_space0| |lia]. intros _ _ _.
  eapply (spec_bind 0 0); [apply spec_fields| |lia]. intros fs Hfs _.
  eapply (spec_bind 0 0); [apply spec_opt_id| |lia]. intros i Hi _. apply spec_ret.
  unfold VariantOk. cbn. auto.
Qed.

(** * Literals, attributes, definitions *)
Section Lit.
Context {F : Type}.
Variable parse_f64 : str -> option F.

Lemma spec_float n : spec 3 n (fun _ => True) (parse_float parse_f64).
Proof.
  unfold parse_float. eapply (spec_bind 0 3); [eapply spec_opt, spec_one_of| |lia]. intros s _ _.
  eapply (spec_bind 1 2); [apply spec_take_while| |lia]. intros a _ _.
  eapply (spec_bind 1 1); [apply spec_char| |lia]. intros _ _ _.
  eapply (spec_bind 1 0); [apply spec_take_while| |lia]. intros b _ _.
  eapply (spec_bind 0 0) with (P := fun _ => True); [| |lia].
  - eapply spec_weaken; [eapply (spec_opt 1) with (P := fun _ => True)|lia|apply le_n|auto].
    eapply (spec_bind 1 0); [apply spec_one_of| |lia]. intros c _ _.
    eapply (spec_bind 0 0); [eapply spec_opt, spec_one_of| |lia]. intros s' _ _.
    eapply (spec_bind 1 0); [apply spec_cut, spec_take_while| |lia]. intros d _ _. apply spec_ret. exact I.
  - intros e _ _. destruct (parse_f64 _); [apply spec_ret; exact I|apply spec_fail].
Qed.
Lemma spec_int n : spec 1 n (fun z => (- 2 ^ 127 <= z < 2 ^ 127)%Z) parse_int.
Proof.
  unfold parse_int. eapply (spec_bind 0 1); [eapply spec_opt, spec_one_of| |lia]. intros s _ _.
  eapply (spec_bind 1 0); [apply spec_take_while| |lia]. intros d _ _.
  unfold int_value. destruct (_ && _)%bool eqn:E; [|apply spec_fail].
  apply andb_true_iff in E as [E1 E2]. apply spec_ret. lia.
Qed.
Lemma is_scalar_ok c : is_scalar c = true <-> scalar c.
Proof.
  unfold is_scalar, scalar. rewrite orb_true_iff, andb_true_iff, !N.ltb_lt, N.leb_le. reflexivity.
Qed.
Lemma spec_unicode n : spec 1 n scalar parse_string_unicode.
Proof.
  unfold parse_string_unicode. eapply (spec_bind 1 0) with (P := fun _ => True); [| |lia].
  - eapply (spec_bind 1 0); [apply spec_char| |lia]. intros _ _ _. apply spec_cut.
    eapply (spec_bind 1 0); [apply spec_char| |lia]. intros _ _ _.
    eapply (spec_bind 1 0); [apply spec_take_between| |lia]. intros h _ _.
    eapply (spec_bind 1 0); [apply spec_char| |lia]. intros _ _ _. apply spec_ret. exact I.
  - intros h _ _. destruct (is_scalar (hex_value h)) eqn:E; [apply spec_ret, is_scalar_ok, E|apply spec_fail].
Qed.
Lemma spec_escaped n : spec 2 n scalar parse_escaped_char.
Proof.
  unfold parse_escaped_char. eapply (spec_bind 1 1); [apply spec_char| |lia]. intros _ _ _.
  eapply (spec_bind 0 1); [apply spec_peek| |lia]. intros c _ _.
  assert (Hc : forall m a b, scalar b -> spec 1 m scalar (char a ;; pret b)).
  { intros m a b Hb. eapply (spec_bind 1 0); [apply spec_char| |lia]. intros _ _ _. apply spec_ret, Hb. }
  repeat match goal with |- spec _ _ _ (if ?c then _ else _) => destruct c; [first [apply Hc; unfold scalar; lia|apply spec_unicode]|] end.
  apply spec_fail.
Qed.
Lemma spec_fragment n : spec 1 n text parse_fragment.
Proof.
  unfold parse_fragment. apply spec_alt; [|apply spec_alt].
  - eapply spec_weaken; [apply (spec_take_while _ 1)|lia|apply le_n|]. intros a (_ & H & _). exact H.
  - eapply spec_weaken; [eapply spec_map; [apply spec_escaped|]|lia|apply le_n|intros a Ha; exact Ha].
    intros c Hc. constructor; [exact Hc|constructor].
  - eapply (spec_bind 1 0); [apply spec_char| |lia]. intros _ _ _.
    eapply (spec_bind 1 0); [apply spec_multispace1| |lia]. intros _ _ _. apply spec_ret. constructor.
Qed.
Lemma text_concat l : Forall text l -> text (concat l).
Proof. induction 1; cbn; [constructor|]. apply text_app. auto. Qed.
Lemma spec_string n : spec 2 n text parse_string.
Proof.
  unfold parse_string. eapply (spec_bind 1 1); [apply spec_char| |lia]. intros _ _ _. apply spec_cut.
  eapply (spec_bind 0 1); [apply spec_repeat0, spec_fragment| |lia]. intros l Hl _.
  eapply (spec_bind 1 0); [apply spec_char| |lia]. intros _ _ _. apply spec_ret, text_concat, Hl.
Qed.
Lemma spec_bytes n : spec 2 n (fun l => l <> [] /\ Forall (fun b => b < 256) l) parse_bytes.
Proof.
  unfold parse_bytes. eapply (spec_bind 1 1); [apply spec_char| |lia]. intros _ _ _. apply spec_cut.
  eapply (spec_bind 1 0); [eapply spec_separated1; [apply spec_ws, spec_dec_uint|apply spec_ws, spec_comma]| |lia].
  intros l (Hl & Hn) _.
  eapply (spec_bind 0 0); [eapply spec_opt, spec_ws, spec_comma| |lia]. intros _ _ _.
  eapply (spec_bind 1 0); [apply spec_ws, spec_char| |lia]. intros _ _ _. apply spec_ret. split; [exact Hn|].
  eapply Forall_impl; [|exact Hl]. cbn. intros a Ha. lia.
Qed.
Lemma spec_literal n : spec 1 n (@LitOk F) (parse_literal parse_f64).
Proof.
  unfold parse_literal. eapply (spec_bind 0 1); [apply spec_peek| |lia]. intros c _ _.
  destruct (c =? 116); [|destruct (c =? 102); [|destruct (is_sign c || is_digit c); [|destruct (c =? 34); [|destruct (c =? 91)]]]].
  - eapply (spec_bind 4 0); [apply (spec_tag _ (tx "true"))| |lia]. intros _ _ _. apply spec_ret. exact I.
  - eapply (spec_bind 5 0); [apply (spec_tag _ (tx "false"))| |lia]. intros _ _ _. apply spec_ret. exact I.
  - apply spec_cut, spec_alt.
    + eapply spec_weaken; [eapply spec_map; [apply spec_float|]|lia|apply le_n|intros a Ha; exact Ha]. intros f _. exact I.
    + eapply spec_map; [apply spec_int|]. intros z Hz. exact Hz.
  - eapply spec_weaken; [eapply spec_map; [apply spec_string|]|lia|apply le_n|intros a Ha; exact Ha]. intros s Hs. exact Hs.
  - eapply spec_weaken; [eapply spec_map; [apply spec_bytes|]|lia|apply le_n|intros a Ha; exact Ha]. intros l Hl. exact Hl.
  - apply spec_fail.
Qed.

Definition ValueOk (v : attr_value F) : Prop := forall n, LowerName n -> AttrOk (Attr n v).
Lemma Forall_fold {A} (P : A -> Prop) l : Forall P l <-> fold_right (fun a Q => P a /\ Q) True l.
Proof.
  induction l; cbn; [split; auto|]. rewrite <- IHl. split; [inversion 1; auto|intros []; constructor; auto].
Qed.
Lemma spec_attr_list n pv : ((1 <= n)%nat -> spec 0 (n - 1) ValueOk pv) ->
  spec 1 n (fun l => Forall AttrOk l /\ l <> []) (attr_list pv).
Proof.
  intros Hv. unfold attr_list.
  eapply (spec_bind 1 0); [eapply spec_separated1; [apply spec_ws|apply spec_ws, spec_comma]| |lia].
  - eapply (spec_bind 1 0); [apply spec_lower_name| |apply le_n]. intros s Hs H1.
    eapply (spec_bind 0 0); [apply Hv, H1| |lia]. intros v Hv' _. apply spec_ret, Hv', Hs.
  - intros l Hl _. eapply (spec_bind 0 0); [eapply spec_opt, spec_comma| |lia]. intros _ _ _. apply spec_ret, Hl.
Qed.
Lemma spec_value fuel : forall n, (n < fuel)%nat -> spec 0 n ValueOk (parse_value parse_f64 fuel).
Proof.
  induction fuel as [|fuel IH]; [lia|]. intros n Hn. intros i. cbn [parse_value]. revert i.
  change (spec 0 n ValueOk
    (alt (char 40 ;; pmap AMulti (cut_err (pdo l <- attr_list (parse_value parse_f64 fuel); ws (char 41) ;; pret l)))
    (alt (pmap ASingle (parse_single_value parse_f64)) (pret AUnit)))).
  apply spec_alt; [|apply spec_alt].
  - eapply (spec_bind 1 0); [apply spec_char| |lia]. intros _ _ H1.
    eapply spec_map with (P := fun l => Forall AttrOk l /\ l <> []).
    + apply spec_cut. eapply (spec_bind 1 0); [apply spec_attr_list; intros _; apply IH; lia| |lia]. intros l Hl _.
      eapply (spec_bind 1 0); [apply spec_ws, spec_char| |lia]. intros _ _ _. apply spec_ret, Hl.
    + intros l [Hl Hne] s Hs. cbn [AttrOk]. split; [exact Hs|]. split; [exact Hne|].
      apply Forall_fold, Hl.
  - eapply spec_map with (P := @LitOk F).
    + unfold parse_single_value. eapply (spec_bind 0 0); [apply spec_space0| |lia]. intros _ _ _.
      eapply (spec_bind 1 0); [apply spec_char| |lia]. intros _ _ _.
      eapply (spec_bind 0 0); [apply spec_space0| |lia]. intros _ _ _.
      eapply spec_weaken; [apply spec_literal|lia|apply le_n|auto].
    + intros l Hl s Hs. split; assumption.
  - apply spec_ret. intros s Hs. split; [exact Hs|exact I].
Qed.
Lemma spec_pvalue n : spec 0 n ValueOk (pvalue parse_f64).
Proof. intros i Ht Hl. exact (spec_value (S (length i)) (length i) ltac:(lia) i Ht (le_n _)). Qed.
Lemma spec_attribute n : spec 2 n (Forall AttrOk) (parse_attribute parse_f64).
Proof.
  unfold parse_attribute. eapply (spec_bind 1 1); [apply spec_char| |lia]. intros _ _ _.
  eapply (spec_bind 1 0); [apply spec_char| |lia]. intros _ _ _. apply spec_cut.
  eapply (spec_bind 1 0); [apply spec_attr_list; intros _; apply spec_pvalue| |lia]. intros l [Hl _] _.
  eapply (spec_bind 1 0); [apply spec_ws, spec_char| |lia]. intros _ _ _. apply spec_ret, Hl.
Qed.
Lemma spec_attributes n : spec 0 n (Forall AttrOk) (attributes parse_f64).
Proof.
  unfold attributes. eapply spec_map with (P := Forall (Forall AttrOk)).
  - apply spec_repeat0. eapply (spec_bind 2 0); [apply spec_attribute| |lia]. intros l Hl _.
    eapply (spec_bind 1 0); [apply spec_char| |lia]. intros _ _ _. apply spec_ret, Hl.
  - intros l H. apply Forall_concat, H.
Qed.

(** A definition before comments and attributes are attached. *)
Definition RawOk (d : pdef F) : Prop :=
  DefOk d /\ forall c a, Forall LineOk c -> Forall AttrOk a -> DefOk (with_attributes a (with_comment c d)).
Lemma raw_of d : DefOk d -> RawOk d.
Proof.
  intros H. split; [exact H|]. intros c a Hc Ha. destruct d; cbn in *; tauto.
Qed.
Ltac kw n := match goal with |- spec _ _ _ (tag ?s ;; _) =>
  eapply (spec_bind n 1); [apply (spec_tag _ s)| |lia] end; intros _ _ ?;
  eapply (spec_bind 1 0); [apply spec_space1| |lia]; intros _ _ ?; apply spec_cut.
Lemma spec_struct n : spec 1 n (@DefOk F) parse_struct.
Proof.
  unfold parse_struct. kw 6%nat.
  eapply (spec_bind 1 0); [apply spec_type_name| |lia]. intros s Hs _.
  eapply (spec_bind 0 0); [apply spec_opt_generics| |lia]. intros g Hg _.
  eapply (spec_bind 0 0); [apply spec_space0| |lia]. intros _ _ _.
  eapply (spec_bind 0 0); [apply spec_fields| |lia]. intros fs Hfs _. apply spec_ret. cbn. auto.
Qed.
Lemma spec_enum n : spec 1 n (@DefOk F) parse_enum.
Proof.
  unfold parse_enum. kw 4%nat.
  eapply (spec_bind 1 0); [apply spec_type_name| |lia]. intros s Hs _.
  eapply (spec_bind 0 0); [apply spec_opt_generics| |lia]. intros g Hg _.
  eapply (spec_bind 0 0); [apply spec_space0| |lia]. intros _ _ _.
  eapply (spec_bind 2 0); [apply spec_surround; intros _; eapply spec_weaken; [apply spec_punctuated, spec_variant|lia|apply le_n|intros a Ha; exact Ha]| |lia].
  intros vs Hvs _. apply spec_ret. cbn. auto.
Qed.
Lemma spec_alias n : spec 1 n (@DefOk F) parse_alias.
Proof.
  unfold parse_alias. kw 4%nat.
  eapply (spec_bind 1 0); [apply spec_type_name| |lia]. intros s Hs _.
  eapply (spec_bind 0 0); [apply spec_opt_generics| |lia]. intros g Hg _.
  eapply (spec_bind 0 0); [apply spec_space0| |lia]. intros _ _ _.
  eapply (spec_bind 1 0); [apply spec_char| |lia]. intros _ _ _.
  eapply (spec_bind 0 0); [apply spec_space0| |lia]. intros _ _ _.
  eapply (spec_bind 1 0); [apply spec_ptype| |lia]. intros t [Ht Ht'] _.
  eapply (spec_bind 0 0); [apply spec_space0| |lia]. intros _ _ _.
  eapply (spec_bind 1 0); [apply spec_char| |lia]. intros _ _ _. apply spec_ret. cbn. auto.
Qed.
Lemma spec_const n : spec 1 n (@DefOk F) (parse_const parse_f64).
Proof.
  unfold parse_const. kw 5%nat.
  eapply (spec_bind 1 0); [apply spec_const_name| |lia]. intros s Hs _.
  eapply (spec_bind 1 0); [apply spec_char| |lia]. intros _ _ _.
  eapply (spec_bind 0 0); [apply spec_space0| |lia]. intros _ _ _.
  eapply (spec_bind 1 0); [apply spec_ptype| |lia]. intros t [Ht Ht'] _.
  eapply (spec_bind 0 0); [apply spec_space0| |lia]. intros _ _ _.
  eapply (spec_bind 1 0); [apply spec_char| |lia]. intros _ _ _.
  eapply (spec_bind 0 0); [apply spec_space0| |lia]. intros _ _ _.
  eapply (spec_bind 1 0); [apply spec_literal| |lia]. intros v Hv _.
  eapply (spec_bind 1 0); [apply spec_char| |lia]. intros _ _ _. apply spec_ret. cbn. auto 6.
Qed.
Lemma spec_import n : spec 1 n (@DefOk F) parse_import.
Proof.
  unfold parse_import. kw 3%nat.
  eapply (spec_bind 1 0) with (P := fun l => Forall LowerName l /\ l <> []).
  { apply spec_separated1 with (Q := fun _ => True); [apply spec_lower_name|].
    eapply spec_weaken; [apply (spec_tag _ (tx "::"))|cbn; lia|apply le_n|auto]. }
  2:lia.
  intros l [Hl Hne] _.
  eapply (spec_bind 0 0) with (P := fun e => match e with Some n => TypeName n | None => True end); [| |lia].
  - eapply spec_opt. eapply (spec_bind 2 0); [apply (spec_tag _ (tx "::"))| |apply le_n]. intros _ _ _.
    eapply spec_weaken; [apply spec_alt; apply spec_type_name|lia|apply le_n|auto].
  - intros e He _. eapply (spec_bind 1 0); [apply spec_char| |lia]. intros _ _ _. apply spec_ret. cbn. auto.
Qed.
Lemma spec_module n d : ((1 <= n)%nat -> spec 1 (n - 1) (@DefOk F) d) -> spec 1 n (@DefOk F) (parse_module d).
Proof.
  intros Hd. unfold parse_module. kw 3%nat.
  eapply (spec_bind 1 0); [apply spec_lower_name| |lia]. intros s Hs _.
  eapply (spec_bind 0 0); [apply spec_space0| |lia]. intros _ _ _.
  eapply (spec_bind 2 0); [apply spec_surround; intros _; apply spec_repeat0, spec_ws;
     eapply spec_weaken; [apply Hd; cbn in *; lia|lia|cbn in *; lia|intros a Ha; exact Ha]| |lia].
  intros l Hl _. apply spec_ret. cbn. split; [constructor|]. split; [exact Hs|]. apply Forall_fold, Hl.
Qed.
Lemma spec_definition fuel : forall n, (n < fuel)%nat -> spec 1 n (@DefOk F) (parse_definition parse_f64 fuel).
Proof.
  induction fuel as [|fuel IH]; [lia|]. intros n Hn.
  assert (Hb : spec 1 n (@DefOk F) (fun i => parse_definition parse_f64 (S fuel) i)); [|exact Hb].
  cbn [parse_definition]. change (spec 1 n (@DefOk F)
     (pdo c <- ws comments; pdo a <- ws (attributes parse_f64); space0 ;;
      pdo d <- (pdo k <- peek_any;
                if k =? 109 then parse_module (parse_definition parse_f64 fuel)
                else if k =? 115 then parse_struct
                else if k =? 101 then parse_enum
                else if k =? 99 then parse_const parse_f64
                else if k =? 116 then parse_alias
                else if k =? 117 then parse_import
                else pfail);
      pret (with_attributes a (with_comment c d)))).
  eapply (spec_bind 0 1); [apply spec_ws, spec_comments| |lia]. intros c Hc _.
  eapply (spec_bind 0 1); [apply spec_ws, spec_attributes| |lia]. intros a Ha _.
  eapply (spec_bind 0 1); [apply spec_space0| |lia]. intros _ _ _.
  eapply (spec_bind 1 0) with (P := @DefOk F); [| |lia].
  - eapply (spec_bind 0 1); [apply spec_peek| |lia]. intros k _ _.
    repeat match goal with |- spec _ _ _ (if ?c then _ else _) => destruct c end.
    + apply spec_module. intros H1. apply IH. lia.
    + apply spec_struct.
    + apply spec_enum.
    + apply spec_const.
    + apply spec_alias.
    + apply spec_import.
    + apply spec_fail.
  - intros d Hd _. apply spec_ret. apply raw_of; assumption.
Qed.
Lemma spec_pdefinition n : spec 1 n (@DefOk F) (pdefinition parse_f64).
Proof. intros i Ht Hl. exact (spec_definition (S (length i)) (length i) ltac:(lia) i Ht (le_n _)). Qed.

Lemma spec_schema n : spec 0 n (@SchemaOk F) (parse_schema parse_f64).
Proof.
  unfold parse_schema. eapply (spec_bind 0 0) with (P := fun o => match o with Some c => Forall LineOk c | None => True end); [| |lia].
  - eapply spec_opt. eapply (spec_bind 0 1); [apply spec_ws, spec_comments| |apply le_n]. intros c Hc _.
    eapply (spec_bind 1 0); [apply spec_char| |lia]. intros _ _ _. apply spec_ret, Hc.
  - intros c Hc _. eapply (spec_bind 0 0); [apply spec_repeat0, spec_pdefinition| |lia]. intros ds Hds _.
    eapply (spec_bind 0 0); [apply spec_multispace0| |lia]. intros _ _ _. apply spec_ret.
    split; cbn; [destruct c; [exact Hc|constructor]|exact Hds].
Qed.

Lemma schema_parse_ok i s : text i -> schema_parse parse_f64 i = Some s -> SchemaOk s.
Proof.
  intros Ht H. pose proof (spec_schema (length i) i Ht (le_n _)) as Hs. unfold schema_parse in H.
  destruct (parse_schema parse_f64 i) as [s' r| | | |]; try discriminate. destruct r; [|discriminate].
  injection H as ->. apply Hs.
Qed.
End Lit.
