(** C93: the constants in generated Go files denote the schema's values: for which values exactly, and what else they denote. *)
From Verif Require Import Base Syntax Parser ParserSpec ParserRound ParserRound2 Compiler Printer Utf8 RustLit GoLit GoNames GoFile.
From Verif Require PropGoClosed.
Require Import ZifyN ZifyBool.
Require Coq.Strings.String.
Import Coq.Strings.String.StringSyntax.
Local Open Scope N_scope.
Ltac Zify.zify_post_hook ::= idtac.

(** * Numbers *)
Lemma digits_decimals l : Forall digit l -> forall n, decimals n l (fold_left (fun a c => a * 10 + (c - 48)) l n).
Proof.
  induction 1 as [|c l Hc H IH]; intros n; cbn [fold_left]; constructor; [exact Hc|]. replace (10 * n + (c - 48)) with (n * 10 + (c - 48)) by lia. apply IH.
Qed.
Lemma dec_str_ok n : go_decimal (dec_str n) /\ decimals 0 (dec_str n) n.
Proof.
  destruct (dec_str_spec n) as (c & r & E & Hd & Hv & Hz). rewrite E. split.
  - split; [split; [discriminate|exact Hd]|]. destruct Hz as [(-> & -> & ->)|[Hn Hc]]; [left; reflexivity|right]. intros t H. injection H as -> _. lia.
  - pose proof (digits_decimals _ Hd 0) as H. unfold dec_value in Hv. rewrite Hv in H. exact H.
Qed.
Lemma elements_ok l : Forall (fun b => b < 256) l -> l <> [] -> go_elements (join (tx ", ") (map dec_str l)) l.
Proof.
  induction 1 as [|b l Hb H IH]; intros Hl; [contradiction|]. destruct (dec_str_ok b) as [H1 H2]. destruct l as [|b' l].
  - cbn [map join]. constructor; assumption.
  - cbn [map join]. apply ge_more; [exact H1|exact H2|exact Hb|]. apply IH. discriminate.
Qed.

(** * Strings *)
Section Str.
Variable unprintable : N -> bool.
(** A character that is written in a way that Go reads back: not NUL, not the byte order mark, not one that Rust's Debug writes as [\u{..}]. *)
Definition plain (c : N) : Prop := c <> 0 /\ c <> 65279 /\ (unprintable c = true -> In c [9; 10; 13; 34; 92]).
Notation esc := (esc_char unprintable).
Notation body s := (concat (map esc s)).

Lemma esc_plain c t b : unicode_scalar c -> plain c -> go_string t b -> go_string (esc c ++ t) (utf8_of c ++ b).
Proof.
  intros Hs (H0 & Hb & Hu) H. unfold esc_char.
  destruct (c =? 0) eqn:E0; [lia|].
  destruct (c =? 9) eqn:E1; [replace c with 9 by lia; apply (gs_simple 116 9); [reflexivity|exact H]|].
  destruct (c =? 13) eqn:E2; [replace c with 13 by lia; apply (gs_simple 114 13); [reflexivity|exact H]|].
  destruct (c =? 10) eqn:E3; [replace c with 10 by lia; apply (gs_simple 110 10); [reflexivity|exact H]|].
  destruct (c =? 92) eqn:E4; [replace c with 92 by lia; apply (gs_simple 92 92); [reflexivity|exact H]|].
  destruct (c =? 34) eqn:E5; [replace c with 34 by lia; apply (gs_simple 34 34); [reflexivity|exact H]|].
  destruct (unprintable c) eqn:E6.
  - specialize (Hu eq_refl). cbn [In] in Hu. lia.
  - apply gs_char; [|exact H]. unfold go_raw. repeat split; try assumption; lia.
Qed.
Lemma body_plain s : Forall unicode_scalar s -> Forall plain s -> go_string (body s) (concat (map utf8_of s)).
Proof.
  induction 1 as [|c s Hc Hs IH]; intros H; [constructor|]. inversion H; subst. cbn [map concat]. apply esc_plain; auto.
Qed.

Lemma esc_head c : (exists r, esc c = 92 :: r) \/ (esc c = [c] /\ c <> 92).
Proof.
  unfold esc_char. repeat match goal with |- context [if ?x then _ else _] => destruct x eqn:?; [left; eexists; reflexivity|] end.
  right. split; [reflexivity|lia].
Qed.
Lemma body_head s y t : body s = y :: t -> y <> 92 -> exists s', s = y :: s' /\ t = body s'.
Proof.
  intros H Hy. destruct s as [|c s]; [discriminate H|]. cbn [map concat] in H. destruct (esc_head c) as [(r & E)|(E & Hc)]; rewrite E in H; cbn [app] in H.
  - exfalso. congruence.
  - exists s. split; congruence.
Qed.
Lemma zero_inv T b : go_string (92 :: 48 :: T) b ->
  exists y z t b', T = y :: z :: t /\ octal y /\ octal z /\ b = 8 * (y - 48) + (z - 48) :: b' /\ go_string t b'.
Proof.
  intros H. inversion H as [|? ? ? Hr|? ? ? ? Hv|? y z t b' ? Hy Hz ? Hb E|? ? ? ? ? ? ? E|? ? ? ? ? ? ? ? E|? ? ? ? ? ? ? ? E]; subst; try discriminate.
  - unfold go_raw in Hr. lia.
  - exists y, z, t, b'. repeat split; try assumption; try (unfold octal in *; lia).
Qed.
Lemma brace_inv T b : ~ go_string (92 :: 117 :: 123 :: T) b.
Proof.
  intros H. inversion H as [|? ? ? Hr|? ? ? ? Hv|? ? ? ? ? Hx|? ? ? ? ? ? ? E|l v t b' Hl Hx Hv Hb E|? ? ? ? ? ? ? ? E]; subst; try discriminate.
  - unfold go_raw in Hr. lia.
  - unfold octal in *. lia.
  - destruct l as [|a l]; [discriminate Hl|]. cbn [app] in E. assert (a = 123) by congruence. subst a. inversion Hx; subst. discriminate.
Qed.
Lemma esc_inv c s b : go_string (esc c ++ body s) b ->
  (c = 0 /\ exists y z s' b', s = y :: z :: s' /\ octal y /\ octal z /\ b = 8 * (y - 48) + (z - 48) :: b' /\ go_string (body s') b')
  \/ (plain c /\ exists b', b = utf8_of c ++ b' /\ go_string (body s) b').
Proof.
  set (T := body s). intros H. unfold esc_char in H.
  assert (Simple : forall k v, go_escape k = Some v -> ~ octal k -> k <> 120 -> k <> 117 -> k <> 85 -> go_string (92 :: k :: T) b -> exists b', b = v :: b' /\ go_string T b').
  { clear H. intros k v Hk Ho H1 H2 H3 H. inversion H as [|? ? ? Hr|? ? ? ? Hv|? ? ? ? ? Hx|? ? ? ? ? ? ? E|? ? ? ? ? ? ? ? E|? ? ? ? ? ? ? ? E]; subst; try contradiction; try lia.
    - unfold go_raw in Hr. lia.
    - rewrite Hk in Hv. injection Hv as <-. eauto. }
  destruct (c =? 0) eqn:E0.
  { left. split; [lia|]. change (tx "\0" ++ T) with (92 :: 48 :: T) in H.
    destruct (zero_inv _ _ H) as (y & z & t & b' & E & Hy & Hz & -> & Hb).
    - destruct (body_head _ _ _ E) as (s1 & -> & E1); [unfold octal in Hy; lia|].
      symmetry in E1. destruct (body_head _ _ _ E1) as (s2 & -> & ->); [unfold octal in Hz; lia|].
      exists y, z, s2, b'. split; [reflexivity|]. split; [exact Hy|]. split; [exact Hz|]. split; [f_equal; lia|exact Hb]. }
  right. assert (Hp : c <> 0) by lia.
  destruct (c =? 9) eqn:E1.
  { assert (c = 9) by lia. subst c. split; [repeat split; [lia|lia|intros _; cbn; tauto]|]. apply (Simple 116 9) in H; [exact H|reflexivity|unfold octal; lia|lia|lia|lia]. }
  destruct (c =? 13) eqn:E2.
  { assert (c = 13) by lia. subst c. split; [repeat split; [lia|lia|intros _; cbn; tauto]|]. apply (Simple 114 13) in H; [exact H|reflexivity|unfold octal; lia|lia|lia|lia]. }
  destruct (c =? 10) eqn:E3.
  { assert (c = 10) by lia. subst c. split; [repeat split; [lia|lia|intros _; cbn; tauto]|]. apply (Simple 110 10) in H; [exact H|reflexivity|unfold octal; lia|lia|lia|lia]. }
  destruct (c =? 92) eqn:E4.
  { assert (c = 92) by lia. subst c. split; [repeat split; [lia|lia|intros _; cbn; tauto]|]. apply (Simple 92 92) in H; [exact H|reflexivity|unfold octal; lia|lia|lia|lia]. }
  destruct (c =? 34) eqn:E5.
  { assert (c = 34) by lia. subst c. split; [repeat split; [lia|lia|intros _; cbn; tauto]|]. apply (Simple 34 34) in H; [exact H|reflexivity|unfold octal; lia|lia|lia|lia]. }
  destruct (unprintable c) eqn:E6.
  - exfalso. change (tx "\u{") with [92; 117; 123] in H. cbn [app] in H. exact (brace_inv _ _ H).
  - cbn [app] in H. inversion H as [|? ? ? Hr Hb|? ? ? ? Hv|? ? ? ? ? Hx|? ? ? ? ? ? ? E|? ? ? ? ? ? ? ? E|? ? ? ? ? ? ? ? E]; subst; try lia.
    split; [|eauto]. unfold go_raw in Hr. split; [lia|]. split; [lia|]. intros K. congruence.
Qed.
Lemma body_short n : forall s b, (length s <= n)%nat -> go_string (body s) b -> (length b <= length (concat (map utf8_of s)))%nat.
Proof.
  induction n as [|n IH]; intros s b Hn H; destruct s as [|c s]; cbn [length] in Hn; try lia.
  - cbn [map concat] in H. inversion H; subst. reflexivity.
  - cbn [map concat] in H. inversion H; subst. cbn. lia.
  - cbn [map concat] in H |- *. rewrite app_length. apply esc_inv in H as [(-> & y & z & s' & b' & -> & _ & _ & -> & H)|(_ & b' & -> & H)].
    + cbn [length] in Hn |- *. apply IH in H; [|lia]. cbn [map concat]. rewrite !app_length.
      change (utf8_of 0) with [0]. cbn [length]. lia.
    + rewrite app_length. apply IH in H; [|lia]. lia.
Qed.
Lemma utf8_length c : (0 < length (utf8_of c))%nat.
Proof. unfold utf8_of. repeat destruct (_ <? _); cbn; lia. Qed.
Lemma body_exact s : go_string (body s) (concat (map utf8_of s)) -> Forall plain s.
Proof.
  induction s as [|c s IH]; intros H; [constructor|]. cbn [map concat] in H. apply esc_inv in H as [(-> & y & z & s' & b' & -> & _ & _ & E & H)|(Hc & b' & E & H)].
  - exfalso. apply body_short with (n := length s') in H; [|lia]. apply (f_equal (@length N)) in E. cbn [map concat] in E. rewrite !app_length in E. change (utf8_of 0) with [0] in E.
    cbn [length] in E. pose proof (utf8_length y). pose proof (utf8_length z). lia.
  - apply app_inv_head in E. subst b'. constructor; [exact Hc|auto].
Qed.
End Str.

Lemma app_eq_len {A} (a b c d : list A) : length a = length c -> a ++ b = c ++ d -> a = c /\ b = d.
Proof.
  revert c. induction a as [|x a IH]; intros [|y c] Hl H; try discriminate Hl; [split; [reflexivity|exact H]|].
  cbn [app length] in *. destruct (IH c) as [H1 H2]; [lia|congruence|]. split; congruence.
Qed.
Lemma hexes_fun n l m m' : hexes n l m -> hexes n l m' -> m = m'.
Proof. intros H. revert m'. induction H as [n|n c d t m Hc H IH]; intros m' H'; inversion H'; subst; [reflexivity|]. apply IH. congruence. Qed.
Ltac fixed IH :=
  match goal with
  | H1 : length ?l = ?k, H2 : length ?l' = ?k, E : ?l' ++ _ = ?l ++ _ |- _ =>
      let A := fresh in let B := fresh in destruct (app_eq_len _ _ _ _ (eq_trans H2 (eq_sym H1)) E) as [A B]; subst;
      f_equal; [try f_equal; eapply hexes_fun; eassumption|apply IH; assumption]
  end.
Lemma go_string_fun t b b' : go_string t b -> go_string t b' -> b = b'.
Proof.
  intros H. revert b'. induction H as [|c t b Hc H IH|c v t b Hc H IH|x y z t b Hx Hy Hz Hv H IH|l v t b Hl Hx H IH|l v t b Hl Hx Hs H IH|l v t b Hl Hx Hs H IH]; intros b' H'.
  - inversion H'; reflexivity.
  - inversion H'; subst; try (unfold go_raw in Hc; lia). f_equal. apply IH. assumption.
  - inversion H'; subst; try discriminate; try (unfold go_raw in *; lia).
    + f_equal; [congruence|apply IH; assumption].
    + exfalso. unfold octal in *. assert (c = 48 \/ c = 49 \/ c = 50 \/ c = 51 \/ c = 52 \/ c = 53 \/ c = 54 \/ c = 55) as K by lia.
      destruct K as [->|[->|[->|[->|[->|[->|[->| ->]]]]]]]; discriminate Hc.
  - inversion H'; subst; try (unfold go_raw, octal in *; lia).
    + exfalso. unfold octal in *. assert (x = 48 \/ x = 49 \/ x = 50 \/ x = 51 \/ x = 52 \/ x = 53 \/ x = 54 \/ x = 55) as K by lia.
      destruct K as [->|[->|[->|[->|[->|[->|[->| ->]]]]]]]; discriminate.
    + f_equal. apply IH. assumption.
  - inversion H'; subst; try discriminate; try (unfold go_raw, octal in *; lia). fixed IH.
  - inversion H'; subst; try discriminate; try (unfold go_raw, octal in *; lia). fixed IH.
  - inversion H'; subst; try discriminate; try (unfold go_raw, octal in *; lia). fixed IH.
Qed.

(** A character that Debug escapes with [\u{..}] makes the literal none at all. *)
Lemma body_escaped up n : forall s b c, (length s <= n)%nat -> In c s -> up c = true -> ~ In c [0; 9; 10; 13; 34; 92] -> ~ go_string (concat (map (esc_char up) s)) b.
Proof.
  induction n as [|n IH]; intros s b c Hn Hin Hc Hx H; destruct s as [|d s]; cbn [length] in Hn; try (lia || contradiction).
  cbn [map concat] in H. pose proof H as H0. apply esc_inv in H as [(-> & y & z & s' & b' & -> & Hy & Hz & -> & H)|((_ & _ & Hd) & b' & -> & H)].
  - assert (Hraw : forall e r t, octal e -> esc_char up e ++ r = e :: t -> up e = true -> False).
    { intros e r t He E Hu. unfold octal in He. unfold esc_char in E. replace (e =? 0) with false in E by lia. replace (e =? 9) with false in E by lia. replace (e =? 13) with false in E by lia.
      replace (e =? 10) with false in E by lia. replace (e =? 92) with false in E by lia. replace (e =? 34) with false in E by lia. rewrite Hu in E. cbn [app] in E. assert (92 = e) by (change (tx "\u{") with [92; 117; 123] in E; cbn [app] in E; congruence). lia. }
    change (esc_char up 0 ++ concat (map (esc_char up) (y :: z :: s'))) with (92 :: 48 :: (esc_char up y ++ (esc_char up z ++ concat (map (esc_char up) s')))) in H0.
    apply zero_inv in H0 as (y' & z' & t & b'' & E & Hy' & Hz' & _); [|exact up].
    destruct (esc_head up y) as [(r & Er)|(Er & Hy92)]; rewrite Er in E; cbn [app] in E; [assert (92 = y') by congruence; unfold octal in Hy'; lia|]. assert (E1 : esc_char up z ++ concat (map (esc_char up) s') = z' :: t) by congruence.
    destruct (esc_head up z) as [(r & Er')|(Er' & Hz92)]; rewrite Er' in E1; cbn [app] in E1; [assert (92 = z') by congruence; unfold octal in Hz'; lia|].
    destruct Hin as [<-|[<-|[<-|Hin]]].
    + apply Hx. left. reflexivity.
    + apply (Hraw y [] []); [exact Hy|rewrite app_nil_r; exact Er|exact Hc].
    + apply (Hraw z [] []); [exact Hz|rewrite app_nil_r; exact Er'|exact Hc].
    + cbn [length] in Hn. eapply (IH s'); try eassumption. lia.
  - destruct Hin as [<-|Hin].
    + apply Hx. right. apply Hd, Hc.
    + eapply (IH s); try eassumption. lia.
Qed.

(** * Constants *)
Section Consts.
Context {F : Type}.
Variable parse_f64 : str -> option F.
Variable float_text : F -> str.
Variable finite : F -> bool.
Variable unprintable : N -> bool.
(** [Display for f64]: finite floats are decimal numbers that read back, and only they are. *)
Definition shows : Prop := forall f,
  if finite f then (go_number (float_text f) \/ exists t, float_text f = 45 :: t /\ go_number t) /\ parse_f64 (float_text f) = Some f
  else ~ go_number (float_text f) /\ forall t, float_text f = 45 :: t -> ~ go_number t.
(** The two zeros are different floats. *)
Definition two_zeros : Prop := forall t f, zero_number t -> parse_f64 (45 :: t) = Some f -> parse_f64 t <> Some f.
(** The values whose literal is read back: no negative zero, no infinity, no string with a character that is not plain, no empty bytes. *)
Definition usual (v : lit F) : Prop :=
  match v with
  | LBool _ | LInt _ => True
  | LFloat f => finite f = true /\ forall t, float_text f = 45 :: t -> ~ zero_number t
  | LString s => Forall (plain unprintable) s
  | LBytes b => b <> []
  end.

Lemma number_head s : go_number s -> exists d t, s = d :: t /\ digit d.
Proof.
  intros [[[Hn H] _]|(a & b & [Hn H] & _ & ->)].
  - destruct s as [|d t]; [contradiction|]. inversion H; subst. eauto.
  - destruct a as [|d t]; [contradiction|]. inversion H; subst. cbn [app]. eauto.
Qed.
Lemma literal_iff v : shows -> two_zeros -> LitOk v \/ v = LBytes [] -> go_value parse_f64 (go_literal float_text unprintable v) v <-> usual v.
Proof.
  intros Hsh Hz Hok. destruct v as [b|z|f|s|b]; cbn [go_literal pr_literal usual].
  - split; [exact (fun _ => I)|]. destruct b; constructor.
  - split; [exact (fun _ => I)|]. intros _. unfold pr_int. destruct (dec_str_ok (Z.abs_N z)) as [H1 H2]. destruct (z <? 0)%Z eqn:E.
    + replace z with (- Z.of_N (Z.abs_N z))%Z at 2 by lia. constructor; assumption.
    + replace z with (Z.of_N (Z.abs_N z)) at 2 by lia. constructor; assumption.
  - specialize (Hsh f). split.
    + intros H. destruct (finite f) eqn:Ef.
      * destruct Hsh as [Hs Hp]. split; [reflexivity|]. intros t Et H0. rewrite Et in *. inversion H as [| | | |s' f' Hn|s' f' Hn Hnz|s' f' Hn Hzr Hp'| |]; subst.
        -- destruct (number_head _ Hn) as (d & t' & E & Hd). assert (d = 45) by congruence. unfold digit in Hd. lia.
        -- contradiction.
        -- exact (Hz _ _ H0 Hp Hp').
      * exfalso. destruct Hsh as [H1 H2]. inversion H as [| | | |s' f' Hn|s' f' Hn Hnz ? E|s' f' Hn Hzr Hp' E| |]; subst; [exact (H1 Hn)|eapply H2; [symmetry; exact E|exact Hn]|eapply H2; [symmetry; exact E|exact Hn]].
    + intros [Ef Hnz]. rewrite Ef in Hsh. destruct Hsh as [[H1|(t & Et & H1)] Hp]; [apply gv_float; assumption|]. rewrite Et in *. apply gv_negative_float; [exact H1|apply Hnz; reflexivity|exact Hp].
  - destruct Hok as [Hok|Hok]; [|discriminate Hok]. cbn [LitOk] in Hok. unfold pr_string. change ([34] ++ ?l ++ [34]) with (34 :: l ++ [34]). split.
    + intros H. inversion H as [| | | | | | |t s' Ht Hs E|]; subst. apply app_inj_tail in E as [-> _]. apply body_exact in Ht. exact Ht.
    + intros H. apply gv_string; [apply body_plain; assumption|exact Hok].
  - destruct b as [|x b].
    + split; [|contradiction]. intros H. inversion H.
    + split; [discriminate|]. intros _. destruct Hok as [[_ Hok]|Hok]; [|discriminate Hok]. apply (gv_bytes parse_f64 (join (tx ", ") (map dec_str (x :: b)))). apply elements_ok; [exact Hok|discriminate].
Qed.
End Consts.

(** The Go type of a constant, as it is written. *)
Definition go_name (p : prim) : option str :=
  match p with
  | PrBool => Some (tx "bool") | PrU8 => Some (tx "uint8") | PrU16 => Some (tx "uint16") | PrU32 => Some (tx "uint32") | PrU64 => Some (tx "uint64")
  | PrI8 => Some (tx "int8") | PrI16 => Some (tx "int16") | PrI32 => Some (tx "int32") | PrI64 => Some (tx "int64")
  | PrU128 | PrI128 => Some (tx "*big.Int") | PrF32 => Some (tx "float32") | PrF64 => Some (tx "float64")
  | PrString | PrStringRef => Some (tx "string") | PrBytes | PrBytesRef => Some (tx "[]byte") | PrBoxString | PrBoxBytes => None
  end.
(** Go has constants of truth values, numbers and strings; the others are variables. *)
Definition go_keyword (p : prim) : str :=
  match p with PrU128 | PrI128 | PrBytes | PrBytesRef | PrBoxString | PrBoxBytes => tx "var" | _ => tx "const" end.
Definition line_of (s : str) (text : str) : Prop := exists before after, text = before ++ [10] ++ s ++ [10] ++ after.
Definition comment_lines (c : comment) : str := concat (map (fun l => tx "// " ++ l ++ [10]) c).

Definition head_text (c : comment) (m : str) : str :=
  tx "// Code generated by mabo-go (v0.1.0). DO NOT EDIT." ++ nl ++ nl ++ comment_text 0 c ++ tx "package " ++ m ++ nl ++ nl ++
  tx "import (" ++ nl ++ concat (map (fun im => tabs 1 ++ fst im ++ tx " """ ++ snd im ++ tx """" ++ nl) the_imports) ++ tx ")" ++ nl ++ nl.
Lemma split_head c m x : tx "// Code generated by mabo-go (v0.1.0). DO NOT EDIT." ++ nl ++ nl ++ comment_text 0 c ++ tx "package " ++ m ++ nl ++ nl ++
  tx "import (" ++ nl ++ concat (map (fun im => tabs 1 ++ fst im ++ tx " """ ++ snd im ++ tx """" ++ nl) the_imports) ++ tx ")" ++ nl ++ nl ++ x = head_text c m ++ x.
Proof.
  unfold head_text. generalize (concat (map (fun im => tabs 1 ++ fst im ++ tx " """ ++ snd im ++ tx """" ++ nl) the_imports)) (comment_text 0 c) nl.
  generalize (tx "// Code generated by mabo-go (v0.1.0). DO NOT EDIT.") (tx "package ") (tx "import (") (tx ")"). intros. rewrite <- !app_assoc. reflexivity.
Qed.
Lemma item_end {F} ft up (it : gitem F) : exists e, item_text ft up it = e ++ [10].
Proof.
  change [10] with nl. destruct it; cbn [item_text]; eexists; rewrite ?app_assoc; exact eq_refl.
Qed.
Lemma items_end {F} ft up c m (l : list (gitem F)) : exists b, head_text c m ++ concat (map (item_text ft up) l) = b ++ [10].
Proof.
  induction l as [|it l _] using rev_ind.
  - change [10] with nl. unfold head_text. cbn [map concat]. rewrite app_nil_r. rewrite ?app_assoc. eexists. exact eq_refl.
  - destruct (item_end ft up it) as [e He]. rewrite map_app, concat_app. cbn [map concat]. rewrite app_nil_r, He. rewrite !app_assoc. eexists. exact eq_refl.
Qed.
(** Every constant of every module is in the file of its module with its documentation, its name and the type; and its literal has the value of
    the schema by Go's rules exactly if the value is a usual one. *)
Theorem C93_constants_partial : forall (F : Type) (parse_f64 : str -> option F) float_text finite unprintable package (ds : list (sdef F)) path f,
  shows parse_f64 float_text finite -> two_zeros parse_f64 ->
  In (path, Some f) (go_files package ds) -> exists inner, PropGoClosed.ModuleAt path ds inner /\
  forall c n t v, In (SConst c n t v) inner -> LitOk v ->
  exists p ty lit, t = SPrim p /\ go_name p = Some ty
    /\ line_of (comment_lines c ++ go_keyword p ++ tx " " ++ camel n ++ tx " " ++ ty ++ tx " = " ++ lit) (file_text float_text unprintable f)
    /\ (go_value parse_f64 lit v <-> usual float_text finite unprintable v).
Proof.
  intros F pf ft fin up package ds path f Hsh Hz Hin. destruct (PropGoClosed.all_files _ _ _ _ Hin) as (inner & c0 & m & HM & E). exists inner. split; [exact HM|].
  intros c n t v Hc Hok. unfold go_file in E. destruct (collect (map go_items inner)) as [its|] eqn:Ec; [|discriminate E]. cbn [option_map] in E. injection E as ->.
  assert (Hit : exists l r it, concat its = l ++ it :: r /\ go_items (SConst c n t v) = Some [it]).
  { clear -Hc Ec. revert its Ec. induction inner as [|d inner IH]; intros its Ec; [contradiction|]. cbn [map collect] in Ec.
    destruct (go_items d) as [x|] eqn:Ed; [|discriminate Ec]. destruct (collect (map go_items inner)) as [y|] eqn:Ey; [|discriminate Ec]. injection Ec as <-. cbn [concat].
    destruct Hc as [->|Hc].
    - cbn [go_items] in Ed |- *. destruct (const_type t) as [gt|]; [|discriminate Ed]. cbn [option_map] in Ed |- *. injection Ed as <-. exists [], (concat y). eexists. split; reflexivity.
    - destruct (IH Hc y eq_refl) as (l & r & it & E & H). exists (x ++ l), r, it. split; [rewrite E, app_assoc; reflexivity|exact H]. }
  destruct Hit as (l & r & it & El & Ei). cbn [go_items] in Ei. destruct (const_type t) as [gt|] eqn:Et; [|discriminate Ei]. cbn [option_map] in Ei. injection Ei as <-.
  destruct t as [p| | | | | | | |]; try discriminate Et.
  assert (Hty : go_name p = Some (gt_text gt)) by (destruct p; try discriminate Et; cbn [const_type] in Et; injection Et as <-; reflexivity).
  assert (Hk : (if const_kind (SPrim p) then tx "const " else tx "var ") = go_keyword p ++ tx " ") by (destruct p; reflexivity).
  exists p, (gt_text gt), (go_literal ft up v). split; [reflexivity|]. split; [exact Hty|]. split; [|apply literal_iff; auto].
  unfold file_text. cbn [g_items]. rewrite El, map_app, concat_app. cbn [map concat].
  replace (item_text ft up (IConst c (const_kind (SPrim p)) (camel n) gt v)) with (comment_lines c ++ (go_keyword p ++ tx " ") ++ camel n ++ tx " " ++ gt_text gt ++ tx " = " ++ go_literal ft up v ++ [10])
    by (rewrite <- Hk; reflexivity).
  destruct (items_end ft up c0 (snake m) l) as [b Hb]. exists b, (concat (map (item_text ft up) r)).
  cbn [g_comment g_package g_imports]. rewrite split_head. rewrite app_assoc. rewrite Hb.
  generalize (comment_lines c), (go_keyword p), (camel n), (gt_text gt), (go_literal ft up v), (concat (map (item_text ft up) r)), (tx " "), (tx " = ").
  intros. rewrite <- !app_assoc. reflexivity.
Qed.
Print Assumptions C93_constants_partial.

(** A literal of text denotes at most one sequence of bytes. *)
Theorem C93_unambiguous : forall t b b', go_string t b -> go_string t b' -> b = b'.
Proof. exact go_string_fun. Qed.
Print Assumptions C93_unambiguous.

(** The text between the quotes of the literal of a string. *)
Definition written (unprintable : N -> bool) (s t : str) : Prop := pr_string unprintable s = 34 :: t ++ [34].
Lemma written_body up s t : written up s t -> t = concat (map (esc_char up) s).
Proof. unfold written, pr_string. intros H. change ([34] ++ ?l ++ [34]) with (34 :: l ++ [34]) in H. assert (E : concat (map (esc_char up) s) ++ [34] = t ++ [34]) by congruence. apply app_inj_tail in E as [-> _]. reflexivity. Qed.

(** A NUL in front of two digits up to 7, in an otherwise usual string, silently becomes another character: the three are one octal escape. *)
Theorem C93_nul_refuted : forall unprintable a y z s t, text (a ++ s) -> Forall (plain unprintable) (a ++ y :: z :: s) -> octal y -> octal z ->
  written unprintable (a ++ 0 :: y :: z :: s) t ->
  go_string t (concat (map utf8_of a) ++ 8 * (y - 48) + (z - 48) :: concat (map utf8_of s))
  /\ ~ go_string t (concat (map utf8_of (a ++ 0 :: y :: z :: s))).
Proof.
  intros up a y z s t Ht Hp Hy Hz Hw. apply written_body in Hw. subst t. apply Forall_app in Ht as [Ha Hs]. apply Forall_app in Hp as [Hpa Hp].
  inversion Hp as [|? ? Py Hp1]; subst. inversion Hp1 as [|? ? Pz Ps]; subst.
  assert (Raw : forall e, octal e -> plain up e -> esc_char up e = [e]).
  { intros e He (_ & _ & Hu). unfold octal in He. unfold esc_char. replace (e =? 0) with false by lia. replace (e =? 9) with false by lia. replace (e =? 13) with false by lia.
    replace (e =? 10) with false by lia. replace (e =? 92) with false by lia. replace (e =? 34) with false by lia. destruct (up e); [|reflexivity]. specialize (Hu eq_refl). cbn [In] in Hu. lia. }
  assert (H : go_string (concat (map (esc_char up) (a ++ 0 :: y :: z :: s))) (concat (map utf8_of a) ++ 8 * (y - 48) + (z - 48) :: concat (map utf8_of s))).
  { clear Hp Hp1. induction Ha as [|c a Hc Ha IH].
    - cbn [app map concat]. rewrite (Raw y Hy Py), (Raw z Hz Pz). change (esc_char up 0) with [92; 48]. cbn [app].
      pose proof (gs_octal 48 y z (concat (map (esc_char up) s)) (concat (map utf8_of s))) as G. replace (64 * (48 - 48) + 8 * (y - 48) + (z - 48)) with (8 * (y - 48) + (z - 48)) in G by lia.
      apply G; [unfold octal; lia|exact Hy|exact Hz|unfold octal in *; lia|]. apply body_plain; assumption.
    - inversion Hpa; subst. cbn [app map concat]. rewrite <- app_assoc. apply esc_plain; auto. }
  split; [exact H|]. intros H'. apply body_exact in H'. apply Forall_app in H' as [_ H']. inversion H' as [|? ? [H0 _] _]. contradiction.
Qed.
Print Assumptions C93_nul_refuted.

(** A character that Debug writes as [\u{..}] (and no short escape exists for): the literal is no Go literal. *)
Theorem C93_escape_refuted : forall unprintable s t c b, In c s -> unprintable c = true -> ~ In c [0; 9; 10; 13; 34; 92] -> written unprintable s t -> ~ go_string t b.
Proof. intros up s t c b Hin Hc Hx Hw. apply written_body in Hw. subst t. eapply body_escaped; eauto. Qed.
Print Assumptions C93_escape_refuted.

(** Negative zero becomes positive zero. *)
Theorem C93_negative_zero_refuted : forall (F : Type) (parse_f64 : str -> option F) float_text unprintable f zero t,
  float_text f = 45 :: t -> go_number t -> zero_number t -> parse_f64 t = Some zero -> parse_f64 (45 :: t) = Some f -> f <> zero ->
  go_value parse_f64 (go_literal float_text unprintable (LFloat f)) (LFloat zero) /\ ~ go_value parse_f64 (go_literal float_text unprintable (LFloat f)) (LFloat f).
Proof.
  intros F pf ft up f zero t Et Hn Hz Hp Hf Hne. cbn [go_literal pr_literal]. rewrite Et. split; [apply gv_negative_zero; assumption|].
  intros H. inversion H as [| | | |s' f' Hn'|s' f' Hn' Hnz|s' f' Hn' Hzr Hp'| |]; subst; [|contradiction|congruence].
  destruct (number_head _ Hn') as (d & t' & E & Hd). assert (d = 45) by congruence. unfold digit in Hd. lia.
Qed.
Print Assumptions C93_negative_zero_refuted.

(** A module with a string, a negative number and bytes; a string with a NUL in front of 12; one with an escape character. *)
Definition ex_unprintable (c : N) : bool := c <? 32.
Definition ex_defs : list (sdef unit) :=
  [SConst [tx " one"] (tx "FIRST_ONE") (SPrim PrString) (LString (tx "ok" ++ [10])); SConst [] (tx "NUM") (SPrim PrI8) (LInt (-5)); SConst [] (tx "RAW") (SPrim PrBytes) (LBytes [1; 200])].
Definition ex_text : str := tx "// Code generated by mabo-go (v0.1.0). DO NOT EDIT.

package pkg

import (
	mabo ""github.com/dnaka91/mabo-go""
	buf ""github.com/dnaka91/mabo-go/buf""
)

//  one
const FirstOne string = ""ok\n""
const Num int8 = -5
var Raw []byte = []byte{1, 200}
".
Example C93_ex : (exists f, In ([tx "pkg"], Some f) (go_files (tx "pkg") ex_defs) /\ file_text (fun _ => []) ex_unprintable f = ex_text)
  /\ (forall n t v c, In (SConst c n t v) ex_defs -> LitOk v /\ usual (fun _ => []) (fun _ => true) ex_unprintable v).
Proof.
  split; [eexists; split; [left; exact eq_refl|vm_compute; reflexivity]|].
  intros n t v c [H|[H|[H|[]]]]; injection H as _ _ _ <-; (split; [|cbn]).
  - repeat constructor; left; lia.
  - repeat constructor; try discriminate; intros K; cbn; (discriminate K || tauto).
  - cbn. lia.
  - exact I.
  - split; [discriminate|repeat constructor].
  - discriminate.
Qed.
Example C93_nul_ex : written ex_unprintable (0 :: tx "12") (tx "\012") /\ go_string (tx "\012") [10] /\ ~ go_string (tx "\012") [0; 49; 50].
Proof.
  assert (Hw : written ex_unprintable (0 :: tx "12") (tx "\012")) by (vm_compute; reflexivity). split; [exact Hw|].
  apply (C93_nul_refuted ex_unprintable [] 49 50 [] (tx "\012")); [constructor| |unfold octal; lia|unfold octal; lia|exact Hw].
  repeat constructor; try discriminate.
Qed.
Example C93_escape_ex b : written ex_unprintable [27] (tx "\u{1b}") /\ ~ go_string (tx "\u{1b}") b.
Proof.
  assert (Hw : written ex_unprintable [27] (tx "\u{1b}")) by (vm_compute; reflexivity). split; [exact Hw|].
  apply (C93_escape_refuted ex_unprintable [27] _ 27); [left; reflexivity|reflexivity|cbn; lia|exact Hw].
Qed.
(** Floats as two zeros: [true] is the negative one. *)
Definition ex_parse (s : str) : option bool := match s with 45 :: _ => Some true | _ => Some false end.
Definition ex_show (b : bool) : str := if b then tx "-0" else tx "0".
Example C93_negative_zero_ex : go_value ex_parse (tx "-0") (LFloat false) /\ ~ go_value ex_parse (tx "-0") (LFloat true) /\ shows ex_parse ex_show (fun _ => true) /\ two_zeros ex_parse.
Proof.
  assert (Hn : go_number [48]) by (left; split; [split; [discriminate|repeat constructor; lia]|left; reflexivity]).
  destruct (C93_negative_zero_refuted bool ex_parse ex_show ex_unprintable true false [48]) as [H1 H2]; [reflexivity|exact Hn|repeat constructor; left; reflexivity|reflexivity|reflexivity|discriminate|].
  split; [exact H1|]. split; [exact H2|]. split.
  - intros [|]; cbn; (split; [|reflexivity]); [right; exists [48]; split; [reflexivity|exact Hn]|left; exact Hn].
  - intros t f Hz Hp Hq. cbn in Hp. injection Hp as <-. destruct t as [|c t]; [discriminate Hq|]. inversion Hz as [|? ? Hc]; subst. destruct Hc as [-> | ->]; discriminate Hq.
Qed.
