(** Printing and parsing back: fields, literals, attributes, definitions and whole schemas. *)
From Verif Require Import Base Syntax Parser Printer ParserSpec ParserTotal ParserRound.
Require Import ZifyN ZifyBool.
Require Coq.Strings.String.
Import Coq.Strings.String.StringSyntax.
Local Open Scope N_scope.

(** * Ids *)
Definition id_w (i : option N) : str := match i with Some _ => [32] | None => [] end.
Definition id_t (i : option N) : str := match i with Some n => 64 :: dec_str n | None => [] end.
Lemma pr_id_split i : pr_id i = id_w i ++ id_t i.
Proof. destruct i; reflexivity. Qed.
(** The characters behind a field or variant. *)
Definition follow (x : N) : Prop := x = 44 \/ x = 41 \/ x = 125 \/ x = 10.
Lemma id_print i a x y : IdOk i -> forallb is_space a = true -> (i = None -> a = []) -> follow x ->
  opt (space0 ;; parse_id) (a ++ id_t i ++ x :: y) = POk i (x :: y).
Proof.
  intros Hi Ha Hn Hx. destruct i as [n|]; cbn [id_t app].
  - apply opt_ok. rewrite (bind_ok _ _ _ tt (64 :: dec_str n ++ x :: y)) by (apply space0_ok; [exact Ha|reflexivity]).
    unfold parse_id. rewrite (bind_ok _ _ _ tt (dec_str n ++ x :: y)) by reflexivity.
    apply dec_uint_ok; [cbn in Hi; lia|]. cbn. unfold follow in Hx. clsg.
  - rewrite Hn by reflexivity. cbn [app]. apply opt_back.
    rewrite (bind_ok _ _ _ tt (x :: y)).
    + unfold parse_id. apply bind_back, char_miss. unfold follow in Hx. lia.
    + apply space0_none. cbn. unfold follow, is_space in *. lia.
Qed.
Lemma id_full i x y : IdOk i -> follow x -> opt (space0 ;; parse_id) (pr_id i ++ x :: y) = POk i (x :: y).
Proof.
  intros Hi Hx. rewrite pr_id_split, <- app_assoc. apply id_print; [exact Hi|destruct i; reflexivity|intros ->; reflexivity|exact Hx].
Qed.
Lemma id_stop (f : N -> bool) i x y : f 32 = false -> f x = false -> hn f (pr_id i ++ x :: y).
Proof. intros H1 H2. destruct i; cbn; assumption. Qed.

(** * Fields *)
Lemma ufield_print f s x y : UFieldOk f -> sp s -> (x = 44 \/ x = 41) ->
  parse_unnamed_field (s ++ pr_ufield f ++ x :: y) = POk f (x :: y).
Proof.
  intros (Ht & Hn & Hi) Hs Hx. destruct f as [t i]. unfold pr_ufield. cbn [uf_ty uf_id] in *.
  rewrite <- app_assoc. unfold parse_unnamed_field.
  rewrite (bind_ok _ _ _ t (pr_id i ++ x :: y)).
  2:{ rewrite ws_ok; [|exact Hs|apply type_head_ms, Ht]. apply ptype_print; [exact Ht|exact Hn|].
      apply id_stop; [reflexivity|]. destruct Hx as [->| ->]; reflexivity. }
  rewrite (bind_ok _ _ _ i (x :: y)) by (apply id_full; [exact Hi|unfold follow; lia]). reflexivity.
Qed.
Lemma ufield_back s r : sp s -> parse_unnamed_field (s ++ 41 :: r) = PBack.
Proof.
  intros Hs. unfold parse_unnamed_field. apply bind_back. rewrite ws_ok; [|exact Hs|reflexivity].
  unfold ptype. apply close_type. auto.
Qed.

(** Comments. *)
Lemma line_ok level l r : LineOk l -> comment_line (indent level ++ tx "/// " ++ l ++ 10 :: r) = POk l r.
Proof.
  intros [Hnl Hh]. unfold comment_line.
  rewrite (bind_ok _ _ _ tt (tx "/// " ++ l ++ 10 :: r)) by (apply space0_ok; [apply space_indent|reflexivity]).
  rewrite (bind_ok _ _ _ tt (tx " " ++ l ++ 10 :: r)) by reflexivity.
  rewrite (bind_ok _ _ _ tt (l ++ 10 :: r)).
  2:{ apply (space0_ok (tx " ")); [reflexivity|]. destruct l as [|c l]; [reflexivity|]. cbn. unfold is_space. lia. }
  rewrite (bind_ok _ _ _ l (10 :: r)); [reflexivity|].
  unfold take_till. apply take_ok; [|reflexivity|lia]. apply forallb_forall. intros x Hx. cbn beta.
  destruct (x =? 10) eqn:E; [|reflexivity]. apply N.eqb_eq in E. subst x. contradiction.
Qed.
Lemma comment_chain level c T : Forall LineOk c -> comment_line T = PBack -> chain comment_line (pr_comment level c ++ T) c T.
Proof.
  intros Hc HT. induction Hc as [|l c Hl Hc IH]; [constructor; exact HT|].
  unfold pr_comment. cbn [map concat]. rewrite <- !app_assoc.
  apply chain_cons with (r := pr_comment level c ++ T).
  - apply line_ok, Hl.
  - fold (pr_comment level c). rewrite !app_length. change (length [10]) with 1%nat. lia.
  - exact IH.
Qed.
Lemma comment_stop a body : forallb is_space a = true -> hn is_space body -> hn (N.eqb 47) body -> comment_line (a ++ body) = PBack.
Proof.
  intros Ha Hb Hs. unfold comment_line. rewrite (bind_ok _ _ _ tt body) by (apply space0_ok; assumption).
  apply bind_back. destruct body as [|c body]; [reflexivity|]. apply (tag_miss 47 (tx "//")). unfold hn in Hs. lia.
Qed.
Lemma comments_none s body : sp s -> hn is_mspace body -> hn (N.eqb 47) body -> ws comments (s ++ body) = POk [] body.
Proof.
  intros Hs Hb Hc. rewrite ws_ok by assumption. unfold comments. apply repeat_chain. constructor.
  apply (comment_stop [] body); [reflexivity|apply mspace_space, Hb|exact Hc].
Qed.
Lemma comments_ok level c s body : Forall LineOk c -> sp s -> hn is_mspace body -> hn (N.eqb 47) body ->
  exists a, forallb is_space a = true /\ ws comments (s ++ pr_comment level c ++ indent level ++ body) = POk c (a ++ body).
Proof.
  intros Hc Hs Hb Hn. destruct c as [|l c].
  - exists []. split; [reflexivity|]. cbn [pr_comment map concat app]. rewrite app_assoc.
    apply comments_none; [apply sp_app; [exact Hs|apply sp_indent]|exact Hb|exact Hn].
  - exists (indent level). split; [apply space_indent|].
    assert (Hst : comment_line (indent level ++ body) = PBack)
      by (apply comment_stop; [apply space_indent|apply mspace_space, Hb|exact Hn]).
    pose proof (comment_chain level (l :: c) (indent level ++ body) Hc Hst) as Hch.
    assert (Hch' : chain comment_line (tx "/// " ++ l ++ 10 :: pr_comment level c ++ indent level ++ body) (l :: c) (indent level ++ body)).
    { inversion Hc; subst. apply chain_cons with (r := pr_comment level c ++ indent level ++ body).
      - apply (line_ok 0 l). assumption.
      - rewrite !app_length. cbn [length]. rewrite !app_length. cbn. lia.
      - apply comment_chain; assumption. }
    unfold pr_comment. cbn [map concat]. rewrite <- !app_assoc. rewrite app_assoc.
    rewrite ws_ok; [|apply sp_app; [exact Hs|apply sp_indent]|reflexivity].
    unfold comments. apply repeat_chain. exact Hch'.
Qed.

Lemma name_head (f g : N -> Prop) s r : named f g s -> exists c t, s ++ r = c :: t /\ f c.
Proof. intros (c & t & -> & Hc & _). cbn. eauto. Qed.
Lemma name_hn (b : N -> bool) (f g : N -> Prop) s r : named f g s -> (forall c, f c -> b c = false) -> hn b (s ++ r).
Proof. intros H Hb. destruct (name_head _ _ _ r H) as (c & t & -> & Hc). cbn. auto. Qed.
Ltac hnl := intros ? ?; unfold is_mspace, is_space, lower, upper in *; lia.

Lemma nfield_print level f s x y : NFieldOk f -> sp s -> (x = 44 \/ x = 125 \/ x = 10) ->
  parse_named_field (s ++ pr_nfield level f ++ x :: y) = POk f (x :: y).
Proof.
  intros (Hc & Hnm & Ht & Hns & Hi) Hs Hx. destruct f as [c n t i]. unfold pr_nfield.
  cbn [nf_comment nf_name nf_ty nf_id] in *. rewrite <- !app_assoc.
  set (body := n ++ tx ": " ++ pr_type t ++ pr_id i ++ x :: y).
  assert (Hb : hn is_mspace body) by (apply (name_hn _ _ _ _ _ Hnm); hnl).
  assert (Hb2 : hn (N.eqb 47) body) by (apply (name_hn _ _ _ _ _ Hnm); hnl).
  destruct (comments_ok level c s body Hc Hs Hb Hb2) as (a & Ha & Hcm).
  unfold parse_named_field. rewrite (bind_ok _ _ _ _ _ Hcm).
  rewrite (bind_ok _ _ _ tt body) by (apply space0_ok; [exact Ha|apply mspace_space, Hb]).
  rewrite (bind_ok _ _ _ n (tx ": " ++ pr_type t ++ pr_id i ++ x :: y)) by (apply lower_name_ok; [exact Hnm|reflexivity]).
  rewrite (bind_ok _ _ _ tt (tx ": " ++ pr_type t ++ pr_id i ++ x :: y)) by (apply space0_none; reflexivity).
  rewrite (bind_ok _ _ _ tt (tx " " ++ pr_type t ++ pr_id i ++ x :: y)) by reflexivity.
  rewrite (bind_ok _ _ _ tt (pr_type t ++ pr_id i ++ x :: y))
    by (apply (space0_ok (tx " ")); [reflexivity|apply mspace_space, type_head_ms, Ht]).
  rewrite (bind_ok _ _ _ t (pr_id i ++ x :: y)).
  2:{ apply ptype_print; [exact Ht|exact Hns|]. apply id_stop; [reflexivity|]. destruct Hx as [->|[->| ->]]; reflexivity. }
  rewrite (bind_ok _ _ _ i (x :: y)) by (apply id_full; [exact Hi|unfold follow; lia]). reflexivity.
Qed.
Lemma nfield_back s r : sp s -> parse_named_field (s ++ 125 :: r) = PBack.
Proof.
  intros Hs. unfold parse_named_field. rewrite (bind_ok _ _ _ ([] : comment) (125 :: r)) by (apply comments_none; [exact Hs|reflexivity|reflexivity]).
  rewrite (bind_ok _ _ _ tt (125 :: r)) by (apply space0_none; reflexivity). reflexivity.
Qed.

(** Fields behind any blank: what is left is what follows, possibly without blanks. *)
Lemma fields_print level fs a x y : FieldsOk fs -> forallb is_space a = true -> x <> 123 -> x <> 40 -> is_space x = false ->
  (space0 ;; parse_fields) (pr_fields level fs ++ a ++ x :: y) = POk fs (a ++ x :: y)
  \/ (space0 ;; parse_fields) (pr_fields level fs ++ a ++ x :: y) = POk fs (x :: y).
Proof.
  intros Hok Ha H1 H2 H3. destruct fs as [p|p|]; cbn [pr_fields FieldsOk] in *.
  - left. rewrite <- app_assoc.
    rewrite (bind_ok _ _ _ tt (pr_surround 123 125 (pr_nfield (S level)) level true p ++ a ++ x :: y))
      by (apply (space0_ok [32]); reflexivity).
    unfold parse_fields. rewrite (bind_ok _ _ _ 123 (pr_surround 123 125 (pr_nfield (S level)) level true p ++ a ++ x :: y)) by reflexivity.
    cbv beta. rewrite N.eqb_refl. apply map_ok. rewrite Forall_forall in Hok. apply surround_print.
    + reflexivity.
    + discriminate.
    + left; reflexivity.
    + intros v Hv s x0 y0 Hs Hx0. apply nfield_print; [auto|exact Hs|]. destruct Hx0 as [->|[->|[_ ->]]]; auto.
    + intros s Hs. apply nfield_back, Hs.
  - left. rewrite (bind_ok _ _ _ tt (pr_surround 40 41 pr_ufield 0 false p ++ a ++ x :: y)) by (apply space0_none; reflexivity).
    unfold parse_fields. rewrite (bind_ok _ _ _ 40 (pr_surround 40 41 pr_ufield 0 false p ++ a ++ x :: y)) by reflexivity.
    cbv beta. change (40 =? 123) with false. rewrite N.eqb_refl. cbv iota. apply map_ok. rewrite Forall_forall in Hok. apply surround_print.
    + reflexivity.
    + discriminate.
    + right; reflexivity.
    + intros v Hv s x0 y0 Hs Hx0. apply ufield_print; [auto|exact Hs|]. destruct Hx0 as [->|[->|[H0 _]]]; [auto|auto|discriminate].
    + intros s Hs. apply ufield_back, Hs.
  - right. cbn [app]. rewrite (bind_ok _ _ _ tt (x :: y)) by (apply space0_ok; assumption).
    unfold parse_fields. rewrite (bind_ok _ _ _ x (x :: y)) by reflexivity. cbv beta.
    apply N.eqb_neq in H1, H2. rewrite H1, H2. reflexivity.
Qed.
Lemma fields_hn (f : N -> bool) level fs r : f 32 = false -> f 40 = false -> hn f r -> hn f (pr_fields level fs ++ r).
Proof. intros H1 H2 Hr. destruct fs; cbn; assumption. Qed.

(** * Generics *)
Lemma generics_print p r : Forall TypeName (p_values p) -> parse_generics (pr_surround 60 62 (fun s => s) 0 false p ++ r) = POk p r.
Proof.
  intros H. rewrite Forall_forall in H. unfold parse_generics. apply surround_print.
  - reflexivity.
  - discriminate.
  - right; reflexivity.
  - intros v Hv s x y Hs Hx. pose proof (H v Hv) as Hn. rewrite ws_ok; [|exact Hs|apply (name_hn _ _ _ _ _ Hn); hnl].
    apply type_name_ok; [exact Hn|]. destruct Hx as [->|[->|[H0 _]]]; [reflexivity|reflexivity|discriminate].
  - intros s Hs. rewrite ws_ok; [reflexivity|exact Hs|reflexivity].
Qed.
Lemma opt_generics_print g r : GenericsOk g -> hn (N.eqb 60) r -> opt parse_generics (pr_generics g ++ r) = POk g r.
Proof.
  intros Hg Hr. destruct g as [p|]; cbn [pr_generics].
  - apply opt_ok. apply generics_print, Hg.
  - cbn [app]. apply opt_back. unfold parse_generics, surround. apply bind_back. destruct r as [|c r]; [reflexivity|].
    apply char_miss. unfold hn in Hr. lia.
Qed.
Lemma generics_hn (f : N -> bool) g r : f 60 = false -> hn f r -> hn f (pr_generics g ++ r).
Proof. intros H Hr. destruct g; cbn; assumption. Qed.

(** * Variants *)
Lemma variant_print level v s x y : VariantOk v -> sp s -> (x = 44 \/ x = 125 \/ x = 10) ->
  parse_variant (s ++ pr_variant level v ++ x :: y) = POk v (x :: y).
Proof.
  intros (Hc & Hnm & Hf & Hi) Hs Hx. destruct v as [c n fs i]. unfold pr_variant.
  cbn [pv_comment pv_name pv_fields pv_id] in *. rewrite <- !app_assoc.
  set (body := n ++ pr_fields level fs ++ pr_id i ++ x :: y).
  assert (Hb : hn is_mspace body) by (apply (name_hn _ _ _ _ _ Hnm); hnl).
  assert (Hb2 : hn (N.eqb 47) body) by (apply (name_hn _ _ _ _ _ Hnm); hnl).
  destruct (comments_ok level c s body Hc Hs Hb Hb2) as (a & Ha & Hcm).
  unfold parse_variant. rewrite (bind_ok _ _ _ _ _ Hcm).
  rewrite (bind_ok _ _ _ tt body) by (apply space0_ok; [exact Ha|apply mspace_space, Hb]).
  rewrite (bind_ok _ _ _ n (pr_fields level fs ++ pr_id i ++ x :: y)).
  2:{ apply type_name_ok; [exact Hnm|]. apply fields_hn; [reflexivity|reflexivity|]. apply id_stop; [reflexivity|].
      destruct Hx as [->|[->| ->]]; reflexivity. }
  assert (Hfd : exists a', forallb is_space a' = true /\ (i = None -> a' = []) /\
     (space0 ;; parse_fields) (pr_fields level fs ++ pr_id i ++ x :: y) = POk fs (a' ++ id_t i ++ x :: y)).
  { destruct i as [k|].
    - destruct (fields_print level fs [32] 64 (dec_str k ++ x :: y) Hf eq_refl ltac:(lia) ltac:(lia) eq_refl) as [H|H].
      + exists [32]. split; [reflexivity|]. split; [discriminate|exact H].
      + exists []. split; [reflexivity|]. split; [discriminate|exact H].
    - exists []. split; [reflexivity|]. split; [reflexivity|].
      destruct (fields_print level fs [] x y Hf eq_refl) as [H|H]; try exact H; unfold is_space; lia. }
  destruct Hfd as (a' & Ha' & Hn' & Hfd).
  change ((space0 ;; (pdo fs <- parse_fields; pdo i <- opt (space0 ;; parse_id); pret (PVariant c n fs i))) (pr_fields level fs ++ pr_id i ++ x :: y) = POk (PVariant c n fs i) (x :: y)).
  assert (Hassoc : forall (K : pfields -> parser pvariant) j, (space0 ;; (pdo fs <- parse_fields; K fs)) j = (pdo fs <- (space0 ;; parse_fields); K fs) j).
  { intros K j. unfold pbind. destruct (space0 j); reflexivity. }
  rewrite Hassoc, (bind_ok _ _ _ _ _ Hfd).
  rewrite (bind_ok _ _ _ i (x :: y)) by (apply id_print; [exact Hi|exact Ha'|exact Hn'|unfold follow; lia]). reflexivity.
Qed.
Lemma variant_back s r : sp s -> parse_variant (s ++ 125 :: r) = PBack.
Proof.
  intros Hs. unfold parse_variant. rewrite (bind_ok _ _ _ ([] : comment) (125 :: r)) by (apply comments_none; [exact Hs|reflexivity|reflexivity]).
  rewrite (bind_ok _ _ _ tt (125 :: r)) by (apply space0_none; reflexivity). reflexivity.
Qed.
Lemma variants_print level p r : Forall VariantOk (p_values p) ->
  surround 123 125 (punctuated parse_variant) (pr_surround 123 125 (pr_variant (S level)) level true p ++ r) = POk p r.
Proof.
  intros H. rewrite Forall_forall in H. apply surround_print.
  - reflexivity.
  - discriminate.
  - left; reflexivity.
  - intros v Hv s x y Hs Hx. apply variant_print; [auto|exact Hs|]. destruct Hx as [->|[->|[_ ->]]]; auto.
  - intros s Hs. apply variant_back, Hs.
Qed.

(** * Literals *)
Lemma hex_value_app a b : hex_value (a ++ b) = fold_left (fun a c => a * 16 + hex_digit c) b (hex_value a).
Proof. unfold hex_value. apply fold_left_app. Qed.
Lemma hex_char_ok d : d < 16 -> is_hex (hex_char d) = true /\ hex_digit (hex_char d) = d.
Proof.
  intros H. unfold hex_char, hex_digit, is_hex, is_digit. destruct (d <? 10) eqn:E; split; try lia.
  - replace ((48 <=? 48 + d) && (48 + d <=? 57)) with true by lia. lia.
  - replace ((48 <=? 87 + d) && (87 + d <=? 57)) with false by lia.
    replace ((97 <=? 87 + d) && (87 + d <=? 102)) with true by lia. lia.
Qed.
Lemma hex_aux_spec fuel : forall n acc, n < 16 ^ N.of_nat fuel -> (0 < fuel)%nat ->
  exists ds, hex_aux fuel n acc = ds ++ acc /\ forallb is_hex ds = true /\ hex_value ds = n
    /\ ds <> [] /\ (forall k, (0 < k)%nat -> n < 16 ^ N.of_nat k -> (length ds <= k)%nat).
Proof.
  induction fuel as [|fuel IH]; intros n acc Hn Hf; [lia|]. cbn [hex_aux].
  destruct (n <? 16) eqn:E.
  - exists [hex_char (n mod 16)]. rewrite N.mod_small by lia. destruct (hex_char_ok n ltac:(lia)) as [H1 H2].
    split; [reflexivity|]. split; [cbn; rewrite H1; reflexivity|]. split; [unfold hex_value; cbn [fold_left]; lia|].
    split; [discriminate|]. intros k Hk _. cbn. lia.
  - assert (Hq : n / 16 < 16 ^ N.of_nat fuel).
    { apply N.div_lt_upper_bound; [lia|]. replace (N.of_nat (S fuel)) with (N.succ (N.of_nat fuel)) in Hn by lia.
      rewrite N.pow_succ_r' in Hn. exact Hn. }
    assert (Hq0 : n / 16 <> 0). { intros H0. apply N.div_small_iff in H0; lia. }
    assert (Hf' : (0 < fuel)%nat) by (destruct fuel; [cbn in Hq; lia|lia]).
    destruct (IH (n / 16) (hex_char (n mod 16) :: acc) Hq Hf') as (ds & -> & Hd & Hv & Hne & Hk).
    pose proof (N.mod_lt n 16 ltac:(lia)) as Hm. pose proof (N.div_mod' n 16) as Hdm.
    destruct (hex_char_ok (n mod 16) Hm) as [H1 H2].
    exists (ds ++ [hex_char (n mod 16)]). split; [rewrite <- app_assoc; reflexivity|].
    split; [rewrite forallb_app, Hd; cbn; rewrite H1; reflexivity|].
    split; [rewrite hex_value_app, Hv; cbn [fold_left]; lia|].
    split; [destruct ds; discriminate|].
    intros k Hk0 Hnk. rewrite app_length. cbn [length]. destruct k as [|k]; [lia|].
    assert (n / 16 < 16 ^ N.of_nat k).
    { apply N.div_lt_upper_bound; [lia|]. replace (N.of_nat (S k)) with (N.succ (N.of_nat k)) in Hnk by lia.
      rewrite N.pow_succ_r' in Hnk. exact Hnk. }
    assert (0 < k)%nat by (destruct k; [cbn in H; lia|lia]).
    specialize (Hk k H0 H). lia.
Qed.
Lemma hex_str_spec n : n < 16 ^ 6 -> forallb is_hex (hex_str n) = true /\ hex_value (hex_str n) = n
  /\ hex_str n <> [] /\ (length (hex_str n) <= 6)%nat.
Proof.
  intros Hn. unfold hex_str. destruct (hex_aux_spec (S (N.to_nat (N.log2 n))) n []) as (ds & -> & Hd & Hv & Hne & Hk); [|lia|].
  - destruct (N.eq_dec n 0) as [->|Hn0]; [reflexivity|].
    pose proof (N.log2_spec n ltac:(lia)) as [_ H].
    replace (N.of_nat (S (N.to_nat (N.log2 n)))) with (N.succ (N.log2 n)) by lia.
    eapply N.lt_le_trans; [exact H|]. apply N.pow_le_mono_l. lia.
  - rewrite app_nil_r. split; [exact Hd|]. split; [exact Hv|]. split; [exact Hne|]. apply (Hk 6%nat); [lia|exact Hn].
Qed.
Lemma span_max_app m f a r : forallb f a = true -> (length a <= m)%nat -> hn f r -> span_max m f (a ++ r) = (a, r).
Proof.
  revert a. induction m as [|m IH]; intros a Ha Hl Hr.
  - destruct a; [reflexivity|cbn in Hl; lia].
  - destruct a as [|c a]; cbn [app span_max].
    + destruct r as [|c r]; [reflexivity|]. cbn in Hr. rewrite Hr. reflexivity.
    + cbn in Ha, Hl. apply andb_true_iff in Ha as [Hc Ha]. rewrite Hc, (IH a Ha) by (lia || exact Hr). reflexivity.
Qed.

Section Str.
Variable esc_u : N -> bool.
Local Notation esc := (esc_char esc_u).
Lemma is_scalar_scalar c : scalar c -> is_scalar c = true.
Proof. unfold scalar, is_scalar. lia. Qed.
(** A character either stands for itself or is written as an escape sequence. *)
Lemma esc_cases c r : scalar c -> c <> 0 ->
  (esc c = [c] /\ c <> 34 /\ c <> 92)
  \/ ((exists t, esc c = 92 :: t) /\ parse_fragment (esc c ++ r) = POk [c] r).
Proof.
  intros Hs H0. unfold esc_char.
  destruct (c =? 0) eqn:E0; [lia|].
  assert (F : forall X, parse_escaped_char (92 :: X) = POk c r -> parse_fragment (92 :: X) = POk [c] r).
  { intros X HX. unfold parse_fragment. rewrite alt_back by reflexivity. apply alt_ok. exact (map_ok (fun c => [c]) _ _ _ _ HX). }
  destruct (c =? 9) eqn:E1; [right; assert (c = 9) by lia; subst; split; [eexists; reflexivity|apply F; reflexivity]|].
  destruct (c =? 13) eqn:E2; [right; assert (c = 13) by lia; subst; split; [eexists; reflexivity|apply F; reflexivity]|].
  destruct (c =? 10) eqn:E3; [right; assert (c = 10) by lia; subst; split; [eexists; reflexivity|apply F; reflexivity]|].
  destruct (c =? 92) eqn:E4; [right; assert (c = 92) by lia; subst; split; [eexists; reflexivity|apply F; reflexivity]|].
  destruct (c =? 34) eqn:E5; [right; assert (c = 34) by lia; subst; split; [eexists; reflexivity|apply F; reflexivity]|].
  destruct (esc_u c); [right|left; split; [reflexivity|lia]].
  split; [eexists; reflexivity|]. rewrite <- !app_assoc.
  assert (Hc : c < 16 ^ 6) by (unfold scalar in Hs; cbn; lia).
  destruct (hex_str_spec c Hc) as (Hh & Hv & Hne & Hl).
  apply F. unfold parse_escaped_char.
  rewrite (bind_ok _ _ _ tt (117 :: 123 :: hex_str c ++ 125 :: r)) by reflexivity.
  rewrite (bind_ok _ _ _ 117 (117 :: 123 :: hex_str c ++ 125 :: r)) by reflexivity. cbn [N.eqb Pos.eqb]. cbv iota.
  unfold parse_string_unicode.
  rewrite (bind_ok _ _ _ (hex_str c) r).
  - rewrite Hv, is_scalar_scalar by exact Hs. reflexivity.
  - rewrite (bind_ok _ _ _ tt (123 :: hex_str c ++ 125 :: r)) by reflexivity. apply cut_ok.
    rewrite (bind_ok _ _ _ tt (hex_str c ++ 125 :: r)) by reflexivity.
    rewrite (bind_ok _ _ _ (hex_str c) (125 :: r)); [reflexivity|].
    unfold take_between. rewrite span_max_app; [|exact Hh|exact Hl|reflexivity]. destruct (hex_str c); [contradiction|reflexivity].
Qed.
Definition plain (c : N) : bool := match esc c with [x] => true | _ => false end.
Lemma plain_run a : Forall scalar a -> ~ In 0 a -> forallb plain a = true ->
  concat (map esc a) = a /\ forallb (fun c => negb ((c =? 34) || (c =? 92))) a = true.
Proof.
  induction a as [|c a IH]; intros Hs H0 Hp; [split; reflexivity|].
  inversion Hs as [|? ? Hc Hs']; subst. cbn in Hp. apply andb_true_iff in Hp as [Hpc Hp].
  destruct IH as [IH1 IH2]; [exact Hs'|intros H; apply H0; right; exact H|exact Hp|].
  destruct (esc_cases c [] Hc ltac:(intros ->; apply H0; left; reflexivity)) as [(He & H1 & H2)|((t & He) & HF)].
  - cbn [map concat forallb]. rewrite He, IH1, IH2. split; [reflexivity|]. lia.
  - exfalso. unfold plain in Hpc. rewrite He in Hpc. destruct t; [|discriminate]. rewrite He in HF. discriminate HF.
Qed.
Lemma fragments_gen T n : parse_fragment T = PBack -> hn (fun c => negb ((c =? 34) || (c =? 92))) T ->
  forall s, (length s <= n)%nat -> Forall scalar s -> ~ In 0 s ->
  exists l, concat l = s /\ chain parse_fragment (concat (map esc s) ++ T) l T.
Proof.
  intros HT HTh. induction n as [|n IH]; intros s Hl Hs H0.
  { destruct s; [|cbn in Hl; lia]. exists []. split; [reflexivity|]. constructor. exact HT. }
  destruct (span_split plain s) as (a & r & Hsp & -> & Ha & Hr).
  apply Forall_app in Hs as [Hsa Hsr].
  assert (H0a : ~ In 0 a) by (intros H; apply H0; apply in_or_app; left; exact H).
  assert (H0r : ~ In 0 r) by (intros H; apply H0; apply in_or_app; right; exact H).
  destruct (plain_run a Hsa H0a Ha) as [Hca Hpa]. rewrite app_length in Hl.
  rewrite map_app, concat_app, Hca, <- app_assoc.
  (* the rest behind the run *)
  assert (Hrest : exists l, concat l = r /\ chain parse_fragment (concat (map esc r) ++ T) l (T)).
  { destruct r as [|c r]; [exists []; split; [reflexivity|constructor; exact HT]|].
    inversion Hsr as [|? ? Hc Hsr']; subst. cbn [length] in Hl.
    destruct (IH r ltac:(lia) Hsr' ltac:(intros H; apply H0r; right; exact H)) as (l & Hcl & Hch).
    exists ([c] :: l). split; [cbn; rewrite Hcl; reflexivity|]. cbn [map concat]. rewrite <- app_assoc.
    destruct (esc_cases c (concat (map esc r) ++ T) Hc ltac:(intros ->; apply H0r; left; reflexivity)) as [(He & _)|((t & He) & HF)].
    - cbn in Hr. unfold plain in Hr. rewrite He in Hr. discriminate.
    - apply chain_cons with (r := concat (map esc r) ++ T); [exact HF| |exact Hch].
      rewrite (app_length (esc c)), He. cbn [length]. lia. }
  destruct a as [|c a]; [exact Hrest|].
  destruct Hrest as (l & Hcl & Hch). exists ((c :: a) :: l). split; [cbn; rewrite Hcl; reflexivity|].
  apply chain_cons with (r := concat (map esc r) ++ T); [|rewrite (app_length (c :: a)); cbn [length]; lia|exact Hch].
  unfold parse_fragment. apply alt_ok. unfold take_till. apply take_ok; [exact Hpa| |cbn; lia].
  destruct r as [|c1 r]; [exact HTh|]. cbn [map concat].
  inversion Hsr as [|? ? Hc1 _]; subst.
  destruct (esc_cases c1 [] Hc1 ltac:(intros ->; apply H0r; left; reflexivity)) as [(He & _)|((t & He) & _)].
  - cbn in Hr. unfold plain in Hr. rewrite He in Hr. discriminate.
  - rewrite He. reflexivity.
Qed.
Lemma fragments n : forall s rest, (length s <= n)%nat -> Forall scalar s -> ~ In 0 s ->
  exists l, concat l = s /\ chain parse_fragment (concat (map esc s) ++ 34 :: rest) l (34 :: rest).
Proof. intros s rest. apply (fragments_gen (34 :: rest)); reflexivity. Qed.
Lemma string_print s rest : Forall scalar s -> ~ In 0 s -> parse_string (pr_string esc_u s ++ rest) = POk s rest.
Proof.
  intros Hs H0. unfold pr_string. rewrite <- !app_assoc. unfold parse_string.
  rewrite (bind_ok _ _ _ tt (concat (map esc s) ++ [34] ++ rest)) by reflexivity. apply cut_ok.
  destruct (fragments (length s) s rest (le_n _) Hs H0) as (l & Hcl & Hch).
  rewrite (bind_ok _ _ _ l (34 :: rest)) by (apply repeat_chain, Hch).
  rewrite (bind_ok _ _ _ tt rest) by reflexivity. rewrite Hcl. reflexivity.
Qed.
(** A NUL is written as [\0], which the parser refuses. *)
Lemma string_nul s rest : Forall scalar s -> In 0 s -> parse_string (pr_string esc_u s ++ rest) = PCut.
Proof.
  intros Hs H0. apply in_split in H0 as (a0 & b0 & ->).
  assert (Hsplit : exists a b, a0 ++ 0 :: b0 = a ++ 0 :: b /\ ~ In 0 a).
  { clear Hs. revert b0. induction a0 as [|c a0 IH]; intros b0; [exists [], b0; split; [reflexivity|intros []]|].
    destruct (N.eq_dec c 0) as [->|Hc]; [exists [], (a0 ++ 0 :: b0); split; [reflexivity|intros []]|].
    destruct (IH b0) as (a & b & E & Hn). exists (c :: a), b. split; [cbn; rewrite E; reflexivity|]. intros [->|Hi]; [apply Hc; reflexivity|apply Hn, Hi]. }
  destruct Hsplit as (a & b & E & Hn). rewrite E in *. clear E a0 b0.
  apply Forall_app in Hs as [Hsa _]. unfold pr_string. rewrite map_app, concat_app. cbn [map concat].
  change (esc 0) with [92; 48]. rewrite <- !app_assoc. cbn [app].
  set (T := 92 :: 48 :: concat (map esc b) ++ 34 :: rest).
  unfold parse_string. rewrite (bind_ok _ _ _ tt (concat (map esc a) ++ T)) by reflexivity.
  destruct (fragments_gen T (length a) eq_refl eq_refl a (le_n _) Hsa Hn) as (l & _ & Hch).
  unfold cut_err. rewrite (bind_ok _ _ _ l T) by (apply repeat_chain, Hch). reflexivity.
Qed.
End Str.

Section Lit.
Context {F : Type}.
Variable parse_f64 : str -> option F.
Variable fmt_f64 : F -> str.
Variable esc_u : N -> bool.

(** What follows a literal: neither a digit nor a part of a number. *)
Definition lstop (c : N) : bool := is_digit c || (c =? 46) || (c =? 101) || (c =? 69).
Definition Good (l : lit F) : Prop := LitOk l /\ Reprintable fmt_f64 parse_f64 l.

Lemma dec_head n : exists c r, dec_str n = c :: r /\ digit c.
Proof. destruct (dec_str_spec n) as (c & r & -> & Hd & _). inversion Hd; subst. eauto. Qed.
Lemma dec_value_str n : dec_value (dec_str n) = n.
Proof. destruct (dec_str_spec n) as (c & r & -> & _ & Hv & _). exact Hv. Qed.

Lemma int_print z rest : (- 2 ^ 127 <= z < 2 ^ 127)%Z -> hn lstop rest ->
  alt (pmap LFloat (parse_float parse_f64)) (pmap LInt parse_int) (pr_int z ++ rest) = POk (LInt z) rest.
Proof.
  intros Hz Hr.
  assert (Hd : hn is_digit rest) by (revert Hr; apply hn_impl; intros c; unfold lstop; lia).
  assert (Hdot : char 46 rest = PBack).
  { destruct rest as [|c rest]; [reflexivity|]. apply char_miss. cbn in Hr. unfold lstop in Hr. lia. }
  destruct (z <? 0)%Z eqn:Ez; unfold pr_int; rewrite Ez.
  - cbn [app]. rewrite alt_back.
    + apply map_ok. unfold parse_int. rewrite (bind_ok _ _ _ (Some 45) (dec_str (Z.abs_N z) ++ rest)) by reflexivity.
      rewrite (bind_ok _ _ _ _ _ (digits_take _ _ Hd)). unfold int_value. rewrite dec_value_str.
      change (45 =? 45) with true. cbv iota.
      replace (- Z.of_N (Z.abs_N z))%Z with z by lia.
      replace ((- 2 ^ 127 <=? z)%Z && (z <? 2 ^ 127)%Z) with true by lia. reflexivity.
    + unfold pmap. apply bind_back. unfold parse_float. rewrite (bind_ok _ _ _ (Some 45) (dec_str (Z.abs_N z) ++ rest)) by reflexivity.
      rewrite (bind_ok _ _ _ _ _ (digits_take _ _ Hd)). apply bind_back, Hdot.
  - assert (Hs : opt (one_of is_sign) (dec_str (Z.abs_N z) ++ rest) = POk None (dec_str (Z.abs_N z) ++ rest)).
    { apply opt_back. destruct (dec_head (Z.abs_N z)) as (c & r & -> & Hc). cbn.
      assert (is_sign c = false) as -> by (unfold is_sign, digit in *; lia). reflexivity. }
    rewrite alt_back.
    + apply map_ok. unfold parse_int. rewrite (bind_ok _ _ _ _ _ Hs), (bind_ok _ _ _ _ _ (digits_take _ _ Hd)).
      unfold int_value. rewrite dec_value_str. replace (Z.of_N (Z.abs_N z)) with z by lia.
      replace ((- 2 ^ 127 <=? z)%Z && (z <? 2 ^ 127)%Z) with true by lia. reflexivity.
    + unfold pmap. apply bind_back. unfold parse_float. rewrite (bind_ok _ _ _ _ _ Hs), (bind_ok _ _ _ _ _ (digits_take _ _ Hd)).
      apply bind_back, Hdot.
Qed.
Lemma float_print f rest : DecimalPoint (fmt_f64 f) -> parse_f64 (fmt_f64 f) = Some f -> hn lstop rest ->
  parse_float parse_f64 (fmt_f64 f ++ rest) = POk f rest.
Proof.
  intros (sg & a & b & Heq & Hsg & Hane & Ha & Hbne & Hb) Hp Hr.
  assert (Hd : hn is_digit rest) by (revert Hr; apply hn_impl; intros c; unfold lstop; lia).
  assert (Hexp : opt (pdo c <- one_of (fun c => (c =? 101) || (c =? 69));
                pdo s <- opt (one_of is_sign);
                pdo d <- cut_err (take_while 1 is_digit);
                pret (c :: sign_text s ++ d)) rest = POk None rest).
  { apply opt_back, bind_back. destruct rest as [|c rest]; [reflexivity|]. cbn. cbn in Hr.
    assert ((c =? 101) || (c =? 69) = false) as -> by (unfold lstop in Hr; lia). reflexivity. }
  assert (Hmain : forall s, opt (one_of is_sign) (fmt_f64 f ++ rest) = POk s (a ++ 46 :: b ++ rest) -> sign_text s = sg ->
    parse_float parse_f64 (fmt_f64 f ++ rest) = POk f rest).
  { intros s Hs Hst. unfold parse_float. rewrite (bind_ok _ _ _ _ _ Hs).
    rewrite (bind_ok _ _ _ a (46 :: b ++ rest)).
    2:{ apply take_ok; [apply digits_b, Ha|reflexivity|destruct a; [contradiction|cbn; lia]]. }
    rewrite (bind_ok _ _ _ tt (b ++ rest)) by reflexivity.
    rewrite (bind_ok _ _ _ b rest).
    2:{ apply take_ok; [apply digits_b, Hb|exact Hd|destruct b; [contradiction|cbn; lia]]. }
    rewrite (bind_ok _ _ _ _ _ Hexp). rewrite Hst, app_nil_r.
    replace (sg ++ a ++ 46 :: b) with (fmt_f64 f) by (rewrite Heq; reflexivity). rewrite Hp. reflexivity. }
  destruct Hsg as [-> | ->].
  - apply (Hmain None); [|reflexivity]. rewrite Heq, <- !app_assoc. apply opt_back.
    destruct a as [|c a]; [contradiction|]. inversion Ha; subst. cbn.
    assert (is_sign c = false) as -> by (unfold is_sign, digit in *; lia). reflexivity.
  - apply (Hmain (Some 45)); [|reflexivity]. rewrite Heq, <- !app_assoc. reflexivity.
Qed.
Lemma bytes_print l rest : l <> [] -> Forall (fun b => b < 256) l ->
  parse_bytes ((tx "[" ++ join (tx ", ") (map dec_str l) ++ tx "]") ++ rest) = POk l rest.
Proof.
  intros Hne Hl. rewrite Forall_forall in Hl. rewrite <- !app_assoc. unfold parse_bytes.
  rewrite (bind_ok _ _ _ tt (join (tx ", ") (map dec_str l) ++ tx "]" ++ rest)) by reflexivity. apply cut_ok.
  rewrite (bind_ok _ _ _ l (93 :: rest)).
  - reflexivity.
  - apply (separated_join (ws (dec_uint 255)) dec_str l (93 :: rest) Hne) with (s := []).
    + intros v Hv s c r Hs Hc. rewrite ws_ok; [|exact Hs|].
      * apply dec_uint_ok; [specialize (Hl v Hv); lia|]. destruct Hc as [->|Hc]; [reflexivity|]. injection Hc as -> _. reflexivity.
      * destruct (dec_head v) as (c1 & r1 & -> & Hc1). cbn. unfold digit, is_mspace in *. lia.
    + exists 93, rest. repeat split; discriminate.
    + reflexivity.
Qed.
Lemma literal_print l rest : Good l -> hn lstop rest -> parse_literal parse_f64 (pr_literal fmt_f64 esc_u l ++ rest) = POk l rest.
Proof.
  intros [Hok Hre] Hr. unfold parse_literal. destruct l as [b|z|f|s|l]; cbn [pr_literal LitOk Reprintable] in *.
  - destruct b; reflexivity.
  - assert (Hh : exists c r, pr_int z ++ rest = c :: r /\ (c = 45 \/ digit c)).
    { unfold pr_int. destruct (z <? 0)%Z; [eexists; eexists; split; [reflexivity|auto]|].
      destruct (dec_head (Z.abs_N z)) as (c & r & -> & Hc). eexists; eexists; split; [reflexivity|auto]. }
    destruct Hh as (c & r & Hcr & Hc). pose proof (int_print z rest Hok Hr) as HI. rewrite Hcr in *.
    rewrite (bind_ok _ _ _ c (c :: r)) by reflexivity. unfold digit in Hc.
    replace (c =? 116) with false by lia. replace (c =? 102) with false by lia.
    replace (is_sign c || is_digit c) with true by (unfold is_sign, is_digit; lia). apply cut_ok, HI.
  - destruct Hre as [Hdp Hp]. pose proof (float_print f rest Hdp Hp Hr) as HI.
    assert (Hh : exists c r, fmt_f64 f ++ rest = c :: r /\ (c = 45 \/ digit c)).
    { destruct Hdp as (sg & a & b & -> & [->| ->] & Hane & Ha & _); [|eexists; eexists; split; [reflexivity|auto]].
      destruct a as [|c a]; [contradiction|]. inversion Ha; subst. eexists; eexists; split; [reflexivity|auto]. }
    destruct Hh as (c & r & Hcr & Hc). rewrite Hcr in *.
    rewrite (bind_ok _ _ _ c (c :: r)) by reflexivity. unfold digit in Hc.
    replace (c =? 116) with false by lia. replace (c =? 102) with false by lia.
    replace (is_sign c || is_digit c) with true by (unfold is_sign, is_digit; lia). apply cut_ok, alt_ok, map_ok, HI.
  - rewrite (bind_ok _ _ _ 34 (pr_string esc_u s ++ rest)) by reflexivity. cbv beta.
    change (34 =? 116) with false. change (34 =? 102) with false. change (is_sign 34 || is_digit 34) with false.
    change (34 =? 34) with true. cbv iota. apply map_ok, string_print; assumption.
  - rewrite (bind_ok _ _ _ 91 ((tx "[" ++ join (tx ", ") (map dec_str l) ++ tx "]") ++ rest)) by reflexivity. cbv beta.
    change (91 =? 116) with false. change (91 =? 102) with false. change (is_sign 91 || is_digit 91) with false.
    change (91 =? 34) with false. change (91 =? 91) with true. cbv iota. destruct Hok as [H1 H2]. apply map_ok, bytes_print; assumption.
Qed.
Lemma literal_hn l rest : Good l -> hn is_mspace (pr_literal fmt_f64 esc_u l ++ rest).
Proof.
  intros [Hok Hre]. destruct l as [b|z|f|s|l]; cbn [pr_literal LitOk Reprintable] in *; try reflexivity.
  - destruct b; reflexivity.
  - unfold pr_int. destruct (z <? 0)%Z; [reflexivity|]. destruct (dec_head (Z.abs_N z)) as (c & r & -> & Hc). cbn.
    unfold digit, is_mspace in *. lia.
  - destruct Hre as [(sg & a & b & -> & [->| ->] & Hane & Ha & _) _]; [|reflexivity].
    destruct a as [|c a]; [contradiction|]. inversion Ha; subst. cbn. unfold digit, is_mspace in *. lia.
Qed.

(** * Attributes *)
Definition pr_value (v : attr_value F) : str :=
  match v with
  | AUnit => []
  | ASingle l => tx " = " ++ pr_literal fmt_f64 esc_u l
  | AMulti l => pr_concat 40 41 (map (pr_attr fmt_f64 esc_u) l)
  end.
Lemma pr_attr_eq n v : pr_attr fmt_f64 esc_u (Attr n v) = n ++ pr_value v.
Proof. destruct v; reflexivity. Qed.
Lemma join_len (sep : str) l x : In x l -> (length x <= length (join sep l))%nat.
Proof.
  induction l as [|y l IH]; intros H; [destruct H|]. destruct l as [|z l].
  - destruct H as [->|[]]. cbn. lia.
  - change (join sep (y :: z :: l)) with (y ++ sep ++ join sep (z :: l)). rewrite !app_length.
    destruct H as [->|H]; [lia|]. specialize (IH H). lia.
Qed.
Definition astop (c : N) : Prop := c = 44 \/ c = 41 \/ c = 93.
Definition attr_goods (a : attr F) : Prop := Forall (Reprintable fmt_f64 parse_f64) (attr_lits a).

Lemma attr_list_print (pv : parser (attr_value F)) l c r : l <> [] -> (c = 41 \/ c = 93) ->
  (forall n v, In (Attr n v) l -> LowerName n /\ forall x y, astop x -> pv (pr_value v ++ x :: y) = POk v (x :: y)) ->
  attr_list pv (join (tx ", ") (map (pr_attr fmt_f64 esc_u) l) ++ c :: r) = POk l (c :: r).
Proof.
  intros Hne Hc Hl. unfold attr_list.
  rewrite (bind_ok _ _ _ l (c :: r)).
  - rewrite (bind_ok _ _ _ None (c :: r)); [reflexivity|]. apply opt_back, char_miss. lia.
  - apply (separated_join (ws (pdo n <- lower_name; pdo v <- pv; pret (Attr n v))) (pr_attr fmt_f64 esc_u) l (c :: r) Hne) with (s := []).
    + intros [n v] Hv s x y Hs Hx. destruct (Hl n v Hv) as [Hn Hp].
      assert (Hx' : astop x) by (unfold astop; destruct Hx as [->|Hx]; [auto|injection Hx as -> _; lia]).
      rewrite pr_attr_eq, <- app_assoc. rewrite ws_ok; [|exact Hs|apply (name_hn _ _ _ _ _ Hn); hnl].
      rewrite (bind_ok _ _ _ n (pr_value v ++ x :: y)).
      2:{ apply lower_name_ok; [exact Hn|]. destruct v as [|l0|[|a0 l0]]; cbn; try reflexivity; unfold astop in Hx'; clsg. }
      rewrite (bind_ok _ _ _ v (x :: y)) by (apply Hp, Hx'). reflexivity.
    + exists c, r. unfold is_mspace. repeat split; lia.
    + reflexivity.
Qed.
Lemma value_print k : forall v x y, (length (pr_value v) < k)%nat ->
  AttrOk (Attr (tx "a") v) -> Forall (Reprintable fmt_f64 parse_f64) (attr_lits (Attr (tx "a") v)) -> astop x ->
  parse_value parse_f64 k (pr_value v ++ x :: y) = POk v (x :: y).
Proof.
  induction k as [|k IH]; intros v x y Hk Hok Hre Hx; [lia|]. cbn [parse_value].
  destruct v as [|l|l]; cbn [AttrOk attr_lits] in *.
  - cbn [pr_value app]. rewrite alt_back by (apply bind_back, char_miss; unfold astop in Hx; lia).
    rewrite alt_back; [reflexivity|]. unfold pmap. apply bind_back. unfold parse_single_value.
    rewrite (bind_ok _ _ _ tt (x :: y)) by (apply space0_none; cbn; unfold astop, is_space in *; lia).
    apply bind_back, char_miss. unfold astop in Hx. lia.
  - cbn [pr_value]. rewrite <- app_assoc. rewrite alt_back by reflexivity. apply alt_ok. apply map_ok.
    assert (Hg : Good l) by (split; [apply Hok|inversion Hre; assumption]).
    unfold parse_single_value. rewrite (bind_ok _ _ _ tt (tx "= " ++ pr_literal fmt_f64 esc_u l ++ x :: y)) by (apply (space0_ok (tx " ")); reflexivity).
    rewrite (bind_ok _ _ _ tt (tx " " ++ pr_literal fmt_f64 esc_u l ++ x :: y)) by reflexivity.
    rewrite (bind_ok _ _ _ tt (pr_literal fmt_f64 esc_u l ++ x :: y)) by (apply (space0_ok (tx " ")); [reflexivity|apply mspace_space, literal_hn, Hg]).
    apply literal_print; [exact Hg|]. cbn. unfold astop, lstop, is_digit in *. lia.
  - destruct Hok as (_ & Hne & Hall). apply Forall_fold in Hall. rewrite Forall_forall in Hall.
    rewrite Forall_forall in Hre.
    assert (Hv : pr_value (AMulti l) = 40 :: join (tx ", ") (map (pr_attr fmt_f64 esc_u) l) ++ [41]).
    { cbn [pr_value]. unfold pr_concat. destruct l as [|a l]; [contradiction|]. reflexivity. }
    rewrite Hv in *. cbn [length] in Hk. rewrite app_length in Hk. cbn [app length] in *. rewrite <- app_assoc.
    apply alt_ok. rewrite (bind_ok _ _ _ tt (join (tx ", ") (map (pr_attr fmt_f64 esc_u) l) ++ [41] ++ x :: y)) by reflexivity.
    apply map_ok, cut_ok.
    rewrite (bind_ok _ _ _ l (41 :: x :: y)); [reflexivity|].
    apply attr_list_print; [exact Hne|auto|].
    intros n v Hin. specialize (Hall _ Hin). split; [apply Hall|].
    intros x0 y0 Hx0. apply IH; [| | |exact Hx0].
    + pose proof (join_len (tx ", ") (map (pr_attr fmt_f64 esc_u) l) _ (in_map (pr_attr fmt_f64 esc_u) _ _ Hin)) as HL.
      rewrite pr_attr_eq, app_length in HL. lia.
    + cbn [AttrOk] in *. split; [|apply Hall]. exists 97, []. repeat split; [unfold lower; lia..|constructor].
    + apply Forall_forall. intros q Hq. apply Hre. apply in_flat_map. exists (Attr n v). split; [exact Hin|exact Hq].
Qed.
Lemma attribute_line l r : l <> [] -> Forall AttrOk l -> Forall attr_goods l ->
  parse_attribute parse_f64 (35 :: 91 :: join (tx ", ") (map (pr_attr fmt_f64 esc_u) l) ++ 93 :: r) = POk l r.
Proof.
  intros Hne Hok Hg. rewrite Forall_forall in Hok, Hg. unfold parse_attribute.
  rewrite (bind_ok _ _ _ tt (91 :: join (tx ", ") (map (pr_attr fmt_f64 esc_u) l) ++ 93 :: r)) by reflexivity.
  rewrite (bind_ok _ _ _ tt (join (tx ", ") (map (pr_attr fmt_f64 esc_u) l) ++ 93 :: r)) by reflexivity.
  apply cut_ok. rewrite (bind_ok _ _ _ l (93 :: r)); [reflexivity|].
  apply attr_list_print; [exact Hne|auto|].
  intros n v Hin. specialize (Hok _ Hin). specialize (Hg _ Hin). split; [apply Hok|]. intros x y Hx.
  unfold pvalue. apply value_print; [rewrite app_length; cbn; lia| | |exact Hx].
  - cbn [AttrOk] in *. split; [exists 97, []; repeat split; [unfold lower; lia..|constructor]|apply Hok].
  - unfold attr_goods in Hg. destruct v; exact Hg.
Qed.
(** The attributes in front of a definition. *)
Lemma attributes_stop w body : forallb is_space w = true -> hn (N.eqb 35) body ->
  (pdo l <- parse_attribute parse_f64; char 10 ;; pret l) (w ++ body) = PBack.
Proof using parse_f64.
  clear esc_u fmt_f64.
  intros Hw H35. apply bind_back. unfold parse_attribute. apply bind_back. destruct w as [|c w].
  - destruct body as [|c body]; [reflexivity|]. apply char_miss. unfold hn in H35. lia.
  - cbn in Hw. cbn [app]. apply char_miss. unfold is_space in Hw. lia.
Qed.
Lemma attributes_none a body : sp a -> hn is_mspace body -> hn (N.eqb 35) body ->
  ws (attributes parse_f64) (a ++ body) = POk [] body.
Proof using parse_f64.
  intros Ha Hb H35. rewrite ws_ok by assumption. unfold attributes. apply (map_ok (@concat _) _ _ []). apply repeat_chain.
  constructor. apply (attributes_stop []); [reflexivity|exact H35].
Qed.
Lemma attributes_some a x l w body : sp a -> Forall AttrOk (x :: l) -> Forall attr_goods (x :: l) ->
  forallb is_space w = true -> hn (N.eqb 35) body ->
  ws (attributes parse_f64) (a ++ (35 :: pr_concat 91 93 (map (pr_attr fmt_f64 esc_u) (x :: l))) ++ 10 :: w ++ body)
  = POk (x :: l) (w ++ body).
Proof.
  intros Ha Hok Hg Hw H35. rewrite ws_ok; [|exact Ha|reflexivity].
  unfold attributes. rewrite <- (app_nil_r (x :: l)) at 2. apply (map_ok (@concat _) _ _ [x :: l]). apply repeat_chain.
  apply chain_cons with (r := w ++ body).
  - cbn [app]. replace (pr_concat 91 93 (map (pr_attr fmt_f64 esc_u) (x :: l)) ++ 10 :: w ++ body)
      with (91 :: join (tx ", ") (map (pr_attr fmt_f64 esc_u) (x :: l)) ++ 93 :: 10 :: w ++ body).
    2:{ unfold pr_concat. cbn [map]. rewrite <- !app_assoc. reflexivity. }
    rewrite (bind_ok _ _ _ (x :: l) (10 :: w ++ body)) by (apply attribute_line; [discriminate|exact Hok|exact Hg]).
    reflexivity.
  - cbn [app length]. rewrite (app_length (pr_concat _ _ _)). cbn [length]. lia.
  - constructor. apply attributes_stop; assumption.
Qed.
(** Comments and attributes in front of a definition. *)
Lemma header level c l s body : Forall LineOk c -> Forall AttrOk l -> Forall attr_goods l -> sp s ->
  hn is_mspace body -> hn (N.eqb 47) body -> hn (N.eqb 35) body ->
  exists T w, forallb is_space w = true
    /\ ws comments (s ++ pr_comment level c ++ pr_attributes fmt_f64 esc_u level l ++ indent level ++ body) = POk c T
    /\ ws (attributes parse_f64) T = POk l (w ++ body) /\ hn (N.eqb 10) T.
Proof.
  assert (H10 : forall a b, forallb is_space a = true -> hn is_mspace b -> hn (N.eqb 10) (a ++ b)).
  { intros [|y a] [|z b] Ha Hb; cbn [app hn] in *; try exact I; cbn [forallb] in *; unfold is_space, is_mspace in *; lia. }
  intros Hc Hok Hg Hs Hb H47 H35. destruct l as [|x l].
  - cbn [pr_attributes app]. destruct (comments_ok level c s body Hc Hs Hb H47) as (a & Ha & Hcm).
    exists (a ++ body), []. split; [reflexivity|]. split; [exact Hcm|]. split; [|apply H10; assumption]. apply attributes_none; [|exact Hb|exact H35].
    unfold sp. rewrite forallb_forall in *. intros y Hy. specialize (Ha y Hy). unfold is_space, is_mspace in *. lia.
  - set (body' := (35 :: pr_concat 91 93 (map (pr_attr fmt_f64 esc_u) (x :: l))) ++ 10 :: indent level ++ body).
    destruct (comments_ok level c s body' Hc Hs eq_refl eq_refl) as (a & Ha & Hcm).
    exists (a ++ body'), (indent level). split; [apply space_indent|]. split.
    + cbn [pr_attributes]. rewrite <- !app_assoc. exact Hcm.
    + split; [|apply H10; [exact Ha|reflexivity]]. apply attributes_some; [|exact Hok|exact Hg|apply space_indent|exact H35].
      unfold sp. rewrite forallb_forall in *. intros y Hy. specialize (Ha y Hy). unfold is_space, is_mspace in *. lia.
Qed.
End Lit.
