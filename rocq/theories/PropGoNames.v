(** C62: different names of a schema stay different in the generated Go code, and none of them clashes with a generated or
    reserved name. *)
From Verif Require Import Base Syntax Parser ParserSpec Compiler GoNames.
Require Coq.Strings.String.
Import Coq.Strings.String.StringSyntax.
Local Open Scope N_scope.

(** * Usual names *)
Definition low_num (c : N) : Prop := lower c \/ digit c.
(** words of lower case letters and digits that start with a letter, with one underscore between them: house_no, a1_b *)
Inductive PlainField : str -> Prop :=
| pf_one c r : lower c -> Forall low_num r -> PlainField (c :: r)
| pf_more c r n : lower c -> Forall low_num r -> PlainField n -> PlainField ((c :: r) ++ [95] ++ n).
(** capitalised words, each with a lower case letter in second place: FullName, Vec3d, but not A or HTTPServer *)
Inductive PlainType : str -> Prop :=
| pt_one c d r : upper c -> lower d -> Forall low_num r -> PlainType (c :: d :: r)
| pt_more c d r n : upper c -> lower d -> Forall low_num r -> PlainType n -> PlainType ((c :: d :: r) ++ n).

(** * heck on usual names *)
Lemma up_spec c : is_up c = true <-> upper c.
Proof. unfold is_up, upper. lia. Qed.
Lemma low_spec c : is_low c = true <-> lower c.
Proof. unfold is_low, lower. lia. Qed.
Lemma low_num_class c : low_num c -> is_up c = false /\ is_alnum c = true /\ (is_low c = true \/ is_low c = false /\ is_num c = true) /\ to_low c = c.
Proof. unfold low_num, is_alnum, to_low, is_up, is_low, is_num, lower, digit. intros H. destruct ((65 <=? c) && (c <=? 90)) eqn:E; lia. Qed.
Lemma pieces_cons s : exists p ps, pieces s = p :: ps.
Proof. induction s as [|c s (p & ps & E)]; [exists [], []; reflexivity|]. cbn [pieces]. rewrite E. destruct (is_alnum c); eauto. Qed.
Lemma pieces_word w s : Forall (fun c => is_alnum c = true) w ->
  pieces (w ++ s) = match pieces s with p :: ps => (w ++ p) :: ps | [] => [] end.
Proof.
  intros H. induction H as [|c w Hc _ IH]; [destruct (pieces_cons s) as (p & ps & E); cbn [app]; rewrite E; reflexivity|].
  cbn [app pieces]. rewrite IH. destruct (pieces_cons s) as (p & ps & ->). rewrite Hc. reflexivity.
Qed.
Lemma pieces_alnum s : Forall (fun c => is_alnum c = true) s -> pieces s = [s].
Proof. intros H. pose proof (pieces_word s [] H) as E. cbn [pieces] in E. rewrite !app_nil_r in E. exact E. Qed.

Lemma words_low : forall r c acc m, is_up c = false -> Forall low_num r -> words_of acc m (c :: r) = [rev acc ++ c :: r].
Proof.
  induction r as [|x r IH]; intros c acc m Hc Hr; [reflexivity|].
  apply Forall_cons_iff in Hr as [Hx Hr]. pose proof (low_num_class _ Hx) as (Hux & _).
  change (words_of acc m (c :: x :: r)) with (if is_wlower (next_mode m c) && is_up x then rev (c :: acc) :: words_of [] WBoundary (x :: r)
    else if is_wupper m && is_up c && is_low x then rev acc :: words_of [c] WBoundary (x :: r) else words_of (c :: acc) (next_mode m c) (x :: r)).
  rewrite Hux, Hc, Bool.andb_false_r, Bool.andb_false_r. cbn [andb]. rewrite IH by assumption. cbn [rev]. rewrite <- app_assoc. reflexivity.
Qed.
Lemma field_words n : PlainField n -> exists w ws, heck_words n = w :: ws /\ n = join_us (w :: ws) /\
  Forall (fun w => exists c r, w = c :: r /\ lower c /\ Forall low_num r) (w :: ws).
Proof.
  assert (Hal : forall c r, lower c -> Forall low_num r -> Forall (fun c => is_alnum c = true) (c :: r)).
  { intros c r Hc Hr. constructor; [apply low_num_class; left; exact Hc|]. eapply Forall_impl; [|exact Hr]. intros a Ha. apply low_num_class, Ha. }
  assert (Hnu : forall c, lower c -> is_up c = false) by (intros c Hc; apply low_num_class; left; exact Hc).
  induction 1 as [c r Hc Hr|c r n Hc Hr Hn (w & ws & E & En & Hw)].
  - exists (c :: r), []. unfold heck_words. rewrite (pieces_alnum (c :: r)) by (apply Hal; assumption). cbn [flat_map]. rewrite words_low by (auto using Hnu). repeat split. repeat constructor. eauto.
  - exists (c :: r), (w :: ws). split; [|split; [rewrite En; reflexivity|constructor; [eauto|exact Hw]]].
    unfold heck_words in *. rewrite pieces_word by (apply Hal; assumption). cbn [app pieces].
    destruct (pieces_cons n) as (p & ps & Ep). rewrite Ep in *. change (is_alnum 95) with false. cbn [flat_map]. rewrite app_nil_r.
    rewrite words_low by (auto using Hnu). cbn [rev app]. f_equal. exact E.
Qed.
(** Back from camel case: an underscore before every capital. *)
Definition uncamel (s : str) : str := flat_map (fun c => if is_up c then [95; to_low c] else [c]) s.
Lemma uncamel_app a b : uncamel (a ++ b) = uncamel a ++ uncamel b.
Proof. unfold uncamel. apply flat_map_app. Qed.
Lemma uncamel_cap c r : lower c -> Forall low_num r -> uncamel (capitalize (c :: r)) = 95 :: c :: r.
Proof.
  intros Hc Hr. cbn [capitalize uncamel flat_map]. unfold to_up. rewrite (proj2 (low_spec c) Hc).
  replace (is_up (c - 32)) with true by (symmetry; apply up_spec; unfold upper, lower in *; lia).
  replace (to_low (c - 32)) with c by (unfold to_low; rewrite (proj2 (up_spec (c - 32))) by (unfold upper, lower in *; lia); unfold lower in *; lia).
  cbn [app]. do 2 f_equal. induction Hr as [|x r Hx _ IH]; [reflexivity|]. cbn [map flat_map]. destruct (low_num_class _ Hx) as (Hu & _ & _ & Hl).
  rewrite Hl, Hu. cbn [app]. f_equal. exact IH.
Qed.
Lemma field_uncamel n : PlainField n -> uncamel (camel n) = 95 :: n.
Proof.
  intros H. destruct (field_words n H) as (w & ws & E & -> & Hw). unfold camel. rewrite E. clear E H. revert w Hw.
  induction ws as [|w' ws IH]; intros w Hw; apply Forall_cons_iff in Hw as [(c & r & -> & Hc & Hr) Hw].
  - cbn [map concat]. rewrite app_nil_r. apply uncamel_cap; assumption.
  - cbn [map concat]. rewrite uncamel_app, uncamel_cap by assumption. specialize (IH w' Hw). cbn [map concat] in IH. rewrite IH. reflexivity.
Qed.

Lemma words_type c d r n : upper c -> lower d -> Forall low_num r -> (forall x s, n = x :: s -> upper x) ->
  words_of [] WBoundary ((c :: d :: r) ++ n) = match n with [] => [c :: d :: r] | _ => (c :: d :: r) :: words_of [] WBoundary n end.
Proof.
  intros Hc Hd Hr Hn.
  assert (H : forall r x acc m, is_up x = false -> next_mode m x = WLower -> Forall low_num r ->
    words_of acc m ((x :: r) ++ n) = match n with [] => [rev acc ++ x :: r] | _ => (rev acc ++ x :: r) :: words_of [] WBoundary n end).
  { clear - Hn. induction r as [|y r IH]; intros x acc m Hx Hm Hr.
    - destruct n as [|u n]; [reflexivity|]. cbn [app]. 
      change (words_of acc m (x :: u :: n)) with (if is_wlower (next_mode m x) && is_up u then rev (x :: acc) :: words_of [] WBoundary (u :: n)
        else if is_wupper m && is_up x && is_low u then rev acc :: words_of [x] WBoundary (u :: n) else words_of (x :: acc) (next_mode m x) (u :: n)).
      rewrite Hm, (proj2 (up_spec u) (Hn u n eq_refl)). reflexivity.
    - apply Forall_cons_iff in Hr as [Hy Hr]. destruct (low_num_class _ Hy) as (Huy & _ & Hk & _).
      change (words_of acc m ((x :: y :: r) ++ n)) with (if is_wlower (next_mode m x) && is_up y then rev (x :: acc) :: words_of [] WBoundary ((y :: r) ++ n)
        else if is_wupper m && is_up x && is_low y then rev acc :: words_of [x] WBoundary ((y :: r) ++ n) else words_of (x :: acc) (next_mode m x) ((y :: r) ++ n)).
      rewrite Huy, Hx, Bool.andb_false_r, Bool.andb_false_r. cbn [andb]. rewrite Hm. rewrite IH; [|exact Huy| |exact Hr].
      + cbn [rev]. rewrite <- !app_assoc. reflexivity.
      + unfold next_mode. rewrite Huy. destruct (is_low y); reflexivity. }
  change (words_of [] WBoundary ((c :: d :: r) ++ n)) with (if is_wlower (next_mode WBoundary c) && is_up d then [c] :: words_of [] WBoundary ((d :: r) ++ n)
    else if is_wupper WBoundary && is_up c && is_low d then [] :: words_of [c] WBoundary ((d :: r) ++ n) else words_of [c] (next_mode WBoundary c) ((d :: r) ++ n)).
  assert (Hdu : is_up d = false) by (apply low_num_class; left; exact Hd).
  rewrite Hdu, Bool.andb_false_r. cbn [is_wupper andb]. apply (H r d [c]); [exact Hdu| |exact Hr].
  unfold next_mode. rewrite (proj2 (low_spec d) Hd). reflexivity.
Qed.
Lemma plain_head n : PlainType n -> exists x s, n = x :: s /\ upper x.
Proof. intros []; cbn [app]; eauto. Qed.
Lemma upper_alnum c : upper c -> is_alnum c = true.
Proof. unfold is_alnum, is_up, upper. lia. Qed.
Lemma plain_alnum n : PlainType n -> Forall (fun c => is_alnum c = true) n.
Proof.
  assert (Hal : forall r, Forall low_num r -> Forall (fun c => is_alnum c = true) r) by (intros r Hr; eapply Forall_impl; [|exact Hr]; intros a Ha; apply low_num_class, Ha).
  induction 1; [|apply Forall_app; split; [|assumption]]; (constructor; [apply upper_alnum; assumption|constructor; [apply low_num_class; left; assumption|apply Hal; assumption]]).
Qed.
Lemma capitalize_same c d r : upper c -> lower d -> Forall low_num r -> capitalize (c :: d :: r) = c :: d :: r.
Proof.
  intros Hc Hd Hr. cbn [capitalize map]. f_equal; [unfold to_up, is_low, upper in *; destruct ((97 <=? c) && (c <=? 122)) eqn:E; lia|].
  f_equal; [apply low_num_class; left; exact Hd|]. induction Hr as [|x r Hx _ IH]; [reflexivity|]. cbn [map]. f_equal; [apply low_num_class, Hx|exact IH].
Qed.
Lemma type_camel n : PlainType n -> camel n = n.
Proof.
  intros H. unfold camel, heck_words. rewrite pieces_alnum by (apply plain_alnum, H). cbn [flat_map]. rewrite app_nil_r.
  induction H as [c d r Hc Hd Hr|c d r n Hc Hd Hr Hn IH].
  - pose proof (words_type c d r [] Hc Hd Hr ltac:(discriminate)) as E. rewrite app_nil_r in E. rewrite E. cbn [map concat]. rewrite app_nil_r. apply capitalize_same; assumption.
  - destruct (plain_head n Hn) as (x & s & -> & Hx). rewrite words_type; [|assumption..|intros y t E; injection E as <- <-; exact Hx].
    cbn [map concat]. rewrite IH, capitalize_same by assumption. reflexivity.
Qed.
(** Camel case has no underscore. *)
Lemma pieces_no n : forall p c, In p (pieces n) -> In c p -> is_alnum c = true.
Proof.
  induction n as [|x n IH]; intros p c Hp Hc; [destruct Hp as [<-|[]]; destruct Hc|]. cbn [pieces] in Hp. destruct (pieces_cons n) as (q & ps & E). rewrite E in *.
  destruct (is_alnum x) eqn:Ex.
  - destruct Hp as [<-|Hp]; [destruct Hc as [<-|Hc]; [exact Ex|]|]; [apply (IH q c); [left; reflexivity|exact Hc]|apply (IH p c); [right; exact Hp|exact Hc]].
  - destruct Hp as [<-|Hp]; [destruct Hc|]. apply (IH p c Hp Hc).
Qed.
Lemma words_no : forall s acc m w c, In w (words_of acc m s) -> In c w -> In c acc \/ In c s.
Proof.
  induction s as [|x s IH]; intros acc m w c Hw Hc; [destruct Hw|]. destruct s as [|y s].
  - destruct Hw as [<-|[]]. apply in_rev in Hc. destruct Hc as [<-|Hc]; [right; left; reflexivity|left; exact Hc].
  - change (words_of acc m (x :: y :: s)) with (if is_wlower (next_mode m x) && is_up y then rev (x :: acc) :: words_of [] WBoundary (y :: s)
      else if is_wupper m && is_up x && is_low y then rev acc :: words_of [x] WBoundary (y :: s) else words_of (x :: acc) (next_mode m x) (y :: s)) in Hw.
    destruct (is_wlower (next_mode m x) && is_up y); [|destruct (is_wupper m && is_up x && is_low y)].
    + destruct Hw as [<-|Hw]; [apply in_rev in Hc; destruct Hc as [<-|Hc]; [right; left; reflexivity|left; exact Hc]|]. destruct (IH _ _ _ _ Hw Hc) as [[]|H]; right; right; exact H.
    + destruct Hw as [<-|Hw]; [apply in_rev in Hc; left; exact Hc|]. destruct (IH _ _ _ _ Hw Hc) as [[<-|[]]|H]; right; [left; reflexivity|right; exact H].
    + destruct (IH _ _ _ _ Hw Hc) as [[<-|H]|H]; [right; left; reflexivity|left; exact H|right; right; exact H].
Qed.
Lemma camel_no_underscore n : ~ In 95 (camel n).
Proof.
  unfold camel. intros H. apply in_concat in H as (w & Hw & Hc). apply in_map_iff in Hw as (v & <- & Hv).
  unfold heck_words in Hv. apply in_flat_map in Hv as (p & Hp & Hv).
  assert (Hal : forall c, In c v -> is_alnum c = true) by (intros c Hcv; destruct (words_no _ _ _ _ _ Hv Hcv) as [[]|H]; exact (pieces_no n p c Hp H)).
  destruct v as [|a v]; [destruct Hc|]. cbn [capitalize] in Hc. destruct Hc as [Hc|Hc].
  - specialize (Hal a (or_introl eq_refl)). unfold to_up, is_alnum, is_up, is_low, is_num in *. destruct ((97 <=? a) && (a <=? 122)) eqn:E; lia.
  - apply in_map_iff in Hc as (b & Hb & Hin). specialize (Hal b (or_intror Hin)). unfold to_low, is_alnum, is_up, is_low, is_num in *. destruct ((65 <=? b) && (b <=? 90)) eqn:E; lia.
Qed.

(** * Fields *)

(** Usual field names other than encode, decode and size: all fields and methods have different names. *)
Theorem C62_fields_partial : forall fs : sfields,
  NoDup (map sf_name (ss_fields fs)) -> Forall (fun f => PlainField (sf_name f)) (ss_fields fs) ->
  (forall f, In f (ss_fields fs) -> ~ In (sf_name f) [tx "encode"; tx "decode"; tx "size"]) ->
  NoDup (go_members fs).
Proof.
  intros [k fs]. cbn [ss_fields]. unfold go_members. cbn [ss_fields]. intros Hn Hp Hr.
  assert (Hm : forall m c r, m = c :: r -> is_up c = true -> uncamel m = 95 :: to_low c :: uncamel r) by (intros m c r -> Hc; cbn; rewrite Hc; reflexivity).
  induction fs as [|f fs IH]; cbn [map app].
  - repeat (constructor; [cbn; intuition discriminate|]). constructor.
  - cbn [map] in Hn. apply NoDup_cons_iff in Hn as [Hf Hn]. apply Forall_cons_iff in Hp as [Hpf Hp]. constructor; [|apply IH; [exact Hn|exact Hp|intros; apply Hr; right; assumption]].
    intros Hin. pose proof (field_uncamel _ Hpf) as Eu. apply in_app_iff in Hin as [Hin|Hin].
    + apply in_map_iff in Hin as (g & Eg & Hg). apply Hf. rewrite Forall_forall in Hp. pose proof (field_uncamel _ (Hp g Hg)) as Ev.
      rewrite Eg, Eu in Ev. injection Ev as Ev. rewrite Ev. apply in_map. exact Hg.
    + apply (Hr f (or_introl eq_refl)). destruct Hin as [E|[E|[E|[E|[]]]]]; rewrite <- E in Eu; try discriminate Eu; apply (f_equal (@tl N)) in Eu; cbn [tl] in Eu; rewrite <- Eu; cbn; auto.
Qed.
Print Assumptions C62_fields_partial.
Ltac lown := cbn; repeat (first [apply Forall_nil | apply Forall_cons; [unfold low_num, lower, digit; lia|]]).
Example C62_fields_ex : Forall PlainField [tx "house_no"; tx "a1"; tx "n0"] /\ PlainType (tx "FullName") /\ PlainType (tx "Vec3d").
Proof.
  split; [|split].
  - constructor; [|constructor; [|constructor; [|constructor]]].
    + apply (pf_more 104 (tx "ouse") (tx "no")); [unfold lower; lia|lown|]. apply (pf_one 110 [111]); [unfold lower; lia|lown].
    + apply (pf_one 97 [49]); [unfold lower; lia|lown].
    + apply (pf_one 110 [48]); [unfold lower; lia|lown].
  - apply (pt_more 70 117 (tx "ll") (tx "Name")); [unfold upper; lia|unfold lower; lia|lown|].
    apply (pt_one 78 97 (tx "me")); [unfold upper; lia|unfold lower; lia|lown].
  - apply (pt_one 86 101 (tx "c3d")); [unfold upper; lia|unfold lower; lia|lown].
Qed.

(** * Definitions of a package *)
Section Decls.
Context {F : Type}.
Definition go_types (d : sdef F) : list str :=
  match d with SStruct _ n _ _ | SEnum _ n _ _ | SAlias _ n _ _ => [n] | _ => [] end.
Definition go_consts (d : sdef F) : list str := match d with SConst _ n _ _ => [n] | _ => [] end.
Definition starts (p s : str) : Prop := exists r, s = p ++ r.
Definition ends (p s : str) : Prop := exists r, s = r ++ p.

(** What a declared name looks like, and from which definition it is. *)
Inductive shape : Type := HPlain | HNew | HVariant | HCase | HNewCase.
Definition shaped (n : str) (h : shape) (x : str) : Prop :=
  match h with
  | HPlain => x = n
  | HNew => x = tx "New" ++ n
  | HVariant => x = n ++ tx "Variant"
  | HCase => exists v, x = n ++ 95 :: v
  | HNewCase => exists v, x = tx "New" ++ n ++ 95 :: v
  end.
Definition usual (n : str) : Prop := ~ In 95 n /\ ~ starts (tx "New") n /\ ~ ends (tx "Variant") n.

Lemma split95 : forall a b u v, ~ In 95 a -> ~ In 95 b -> a ++ 95 :: u = b ++ 95 :: v -> a = b /\ u = v.
Proof.
  induction a as [|x a IH]; intros [|y b] u v Ha Hb E; cbn in *.
  - injection E as <-. split; reflexivity.
  - injection E as <- E. exfalso. apply Hb. left. reflexivity.
  - injection E as -> E. exfalso. apply Ha. left. reflexivity.
  - injection E as -> E. destruct (IH b u v) as [-> ->]; [tauto|tauto|exact E|]. split; reflexivity.
Qed.
Lemma starts_ext n r : ~ starts (tx "New") n -> (forall c s, r = c :: s -> c <> 78 /\ c <> 101 /\ c <> 119) -> r <> [] -> ~ starts (tx "New") (n ++ r).
Proof.
  intros Hn Hr Hr0 (q & E). destruct r as [|c s]; [tauto|]. destruct (Hr c s eq_refl) as (H1 & H2 & H3). cbn in E.
  destruct n as [|a [|b [|d n]]]; cbn in E; try (injection E; intros; subst; congruence).
  injection E as -> -> -> E. apply Hn. exists n. reflexivity.
Qed.
Definition cased (h : shape) : bool := match h with HCase | HNewCase => true | _ => false end.
Definition newed (h : shape) : bool := match h with HNew | HNewCase => true | _ => false end.
Lemma shape_sig n h x : usual n -> shaped n h x ->
  (In 95 x <-> cased h = true) /\ (starts (tx "New") x <-> newed h = true) /\
  (h = HPlain -> ~ ends (tx "Variant") x) /\ (h = HVariant -> ends (tx "Variant") x).
Proof.
  intros (U1 & U2 & U3) H.
  assert (New95 : ~ In 95 (tx "New")) by (cbn; intuition discriminate).
  assert (Var95 : ~ In 95 (tx "Variant")) by (cbn; intuition discriminate).
  assert (Hcv : forall c s, tx "Variant" = c :: s -> c <> 78 /\ c <> 101 /\ c <> 119) by (intros c s E; injection E as <- _; lia).
  assert (Hcu : forall v c s, 95 :: v = c :: s -> c <> 78 /\ c <> 101 /\ c <> 119) by (intros v c s E; injection E as <- _; lia).
  assert (F0 : false = true <-> False) by (split; [discriminate|tauto]).
  assert (T0 : true = true <-> True) by tauto.
  destruct h; cbn [shaped cased newed] in *; rewrite ?F0, ?T0.
  - subst x. split; [tauto|]. split; [tauto|]. split; [intros _; exact U3|discriminate].
  - subst x. split; [rewrite in_app_iff; tauto|]. split; [split; [tauto|]; intros _; exists n; reflexivity|]. split; discriminate.
  - subst x. split; [rewrite in_app_iff; tauto|]. split; [split; [|tauto]; apply starts_ext; [exact U2|exact Hcv|discriminate]|].
    split; [discriminate|]. intros _. exists n. reflexivity.
  - destruct H as [v ->]. split; [split; [tauto|]; intros _; apply in_app_iff; right; left; reflexivity|].
    split; [split; [|tauto]; apply starts_ext; [exact U2|apply Hcu|discriminate]|]. split; discriminate.
  - destruct H as [v ->]. split; [split; [tauto|]; intros _; apply in_app_iff; right; apply in_app_iff; right; left; reflexivity|].
    split; [split; [tauto|]; intros _; exists (n ++ 95 :: v); reflexivity|]. split; discriminate.
Qed.
Lemma shapes_differ n n' h h' x : usual n -> usual n' -> shaped n h x -> shaped n' h' x -> h = h' /\ n = n'.
Proof.
  intros U V H H'. pose proof (shape_sig n h x U H) as (S1 & S2 & S3 & S4). pose proof (shape_sig n' h' x V H') as (T1 & T2 & T3 & T4).
  assert (E : h = h').
  { assert (E1 : cased h = true <-> cased h' = true) by tauto. assert (E2 : newed h = true <-> newed h' = true) by tauto. clear S1 S2 T1 T2.
    destruct h, h'; cbn in E1, E2; try reflexivity; try (exfalso; destruct E1, E2; (discriminate (H0 eq_refl) || discriminate (H1 eq_refl) || discriminate (H2 eq_refl) || discriminate (H3 eq_refl))).
    - exfalso. exact (S3 eq_refl (T4 eq_refl)).
    - exfalso. exact (T3 eq_refl (S4 eq_refl)). }
  split; [exact E|]. subst h'. destruct U as (U1 & _), V as (V1 & _). destruct h; cbn [shaped] in H, H'.
  - congruence.
  - subst x. apply app_inv_head in H'. exact H'.
  - subst x. apply app_inv_tail in H'. exact H'.
  - destruct H as [v ->], H' as [v' E]. exact (proj1 (split95 _ _ _ _ U1 V1 E)).
  - destruct H as [v ->], H' as [v' E]. apply app_inv_head in E. exact (proj1 (split95 _ _ _ _ U1 V1 E)).
Qed.

(** The name a definition is declared under. *)
Definition go_name (d : sdef F) : list str :=
  match d with SStruct _ n _ _ | SEnum _ n _ _ | SAlias _ n _ _ | SConst _ n _ _ => [camel n] | _ => [] end.
Lemma decls_shaped d x : In x (go_decls d) -> exists n h, In n (go_name d) /\ shaped n h x.
Proof.
  destruct d as [ | c n g fs | c n g vs | c n g t | c n t v | ]; cbn [go_decls go_name]; intros H; try destruct H.
  - exists (camel n), HPlain. split; [left; reflexivity|symmetry; assumption].
  - exists (camel n), HNew. destruct H as [<-|[]]. split; [left; reflexivity|reflexivity].
  - exists (camel n), HVariant. split; [left; reflexivity|symmetry; assumption].
  - destruct H as [<-|H].
    + exists (camel n), HPlain. split; [left; reflexivity|reflexivity].
    + apply in_flat_map in H as (v & _ & [<-|[<-|[]]]); [exists (camel n), HCase|exists (camel n), HNewCase]; (split; [left; reflexivity|]); cbn [shaped]; eexists; reflexivity.
  - exists (camel n), HPlain. split; [left; reflexivity|symmetry; assumption].
  - destruct H.
  - exists (camel n), HPlain. split; [left; reflexivity|symmetry; assumption].
  - destruct H.
Qed.
Lemma NoDup_app_l {A} (l l' : list A) : NoDup (l ++ l') -> NoDup l.
Proof. induction l as [|x l IH]; intros H; [constructor|]. cbn in H. apply NoDup_cons_iff in H as [H1 H2]. constructor; [intros H; apply H1, in_or_app; left; exact H|exact (IH H2)]. Qed.
Lemma NoDup_app_r {A} (l l' : list A) : NoDup (l ++ l') -> NoDup l'.
Proof. induction l as [|x l IH]; intros H; [exact H|]. cbn in H. apply NoDup_cons_iff in H as [_ H]. exact (IH H). Qed.
Lemma NoDup_flat_map {A B} (f : A -> list B) l : (forall a, In a l -> NoDup (f a)) ->
  (forall a r1 r2 b x, l = r1 ++ a :: r2 -> In b r2 -> In x (f a) -> ~ In x (f b)) -> NoDup (flat_map f l).
Proof.
  induction l as [|a l IH]; intros H1 H2; [constructor|]. cbn [flat_map].
  assert (Hl : NoDup (flat_map f l)).
  { apply IH; [intros; apply H1; right; assumption|]. intros b r1 r2 c x E. apply (H2 b (a :: r1) r2 c x). rewrite E. reflexivity. }
  pose proof (H1 a (or_introl eq_refl)) as Ha.
  assert (Hd : forall x, In x (f a) -> ~ In x (flat_map f l)).
  { intros x Hx Hin. apply in_flat_map in Hin as (b & Hb & Hxb). exact (H2 a [] l b x eq_refl Hb Hx Hxb). }
  clear - Ha Hd Hl. induction (f a) as [|y ys IHy]; [exact Hl|]. cbn. apply NoDup_cons_iff in Ha as [Hy Ha]. constructor.
  - intros Hin. apply in_app_iff in Hin as [Hin|Hin]; [tauto|]. exact (Hd y (or_introl eq_refl) Hin).
  - apply IHy; [exact Ha|]. intros x Hx. apply Hd. right. exact Hx.
Qed.

(** Usual type names (that neither start with New nor end with Variant), constants that do not look like them in camel
    case, and usual variant names: all names declared in the package are different. *)
Theorem C62_decls_partial : forall ds : list (sdef F),
  Forall PlainType (flat_map go_types ds) ->
  NoDup (flat_map go_types ds ++ map camel (flat_map go_consts ds)) ->
  Forall (fun n => ~ starts (tx "New") n /\ ~ ends (tx "Variant") n) (flat_map go_types ds ++ map camel (flat_map go_consts ds)) ->
  (forall c n g vs, In (SEnum c n g vs) ds -> NoDup (map sv_name vs) /\ Forall (fun v => PlainType (sv_name v)) vs) ->
  NoDup (flat_map go_decls ds).
Proof.
  intros ds Hp Hn Hu Hv.
  assert (Hname : forall d n, In d ds -> In n (go_name d) -> usual n /\ In n (flat_map go_types ds ++ map camel (flat_map go_consts ds))).
  { intros d n Hd Hin.
    assert (K : In n (flat_map go_types ds ++ map camel (flat_map go_consts ds))).
    { rewrite Forall_forall in Hp.
      destruct d as [ | c m g fs | c m g vs | c m g t | c m t v | ]; cbn [go_name] in Hin; try contradiction Hin; destruct Hin as [<-|[]]; apply in_app_iff.
      1-3: left; rewrite type_camel by (apply Hp, in_flat_map; eexists; split; [exact Hd|left; reflexivity]); apply in_flat_map; eexists; split; [exact Hd|left; reflexivity].
      right. apply in_map, in_flat_map. eexists. split; [exact Hd|left; reflexivity]. }
    split; [|exact K]. rewrite Forall_forall in Hu. destruct (Hu n K) as [Hu1 Hu2]. split; [|split; assumption].
    destruct d; cbn [go_name] in Hin; try contradiction Hin; destruct Hin as [<-|[]]; apply camel_no_underscore. }
  assert (Hone : forall l, NoDup (flat_map go_types l ++ map camel (flat_map go_consts l)) -> Forall PlainType (flat_map go_types l) ->
    forall a r1 r2 b n, l = r1 ++ a :: r2 -> In b r2 -> In n (go_name a) -> ~ In n (go_name b)).
  { clear. intros l Hn Hp a r1 r2 b n -> Hb Ha Hnb. apply in_split in Hb as (q1 & q2 & ->).
    assert (Hx : forall P : Prop, (forall x, In x (go_types a) -> In x (go_types b) -> P) -> (forall x y, In x (go_types a) -> In y (go_consts b) -> x = camel y -> P)
       -> (forall x y, In x (go_consts a) -> In y (go_types b) -> camel x = y -> P) -> (forall x y, In x (go_consts a) -> In y (go_consts b) -> camel x = camel y -> P) -> P).
    { intros P P1 P2 P3 P4. rewrite Forall_forall in Hp.
      assert (Ta : forall x, In x (go_types a) -> camel x = x) by (intros x Hx; apply type_camel, Hp, in_flat_map; exists a; split; [apply in_elt|exact Hx]).
      assert (Tb : forall x, In x (go_types b) -> camel x = x).
      { intros x Hx. apply type_camel, Hp, in_flat_map. exists b. split; [|exact Hx]. apply in_or_app. right. right. apply in_elt. }
      destruct a, b; cbn [go_name go_types go_consts] in *; try contradiction; destruct Ha as [<-|[]], Hnb as [E|[]]; cbn in *;
        try (rewrite (Ta _ (or_introl eq_refl)) in E); try (rewrite (Tb _ (or_introl eq_refl)) in E); subst; eauto. }
    assert (D2 : forall A (l1 l2 l3 : list A) x, NoDup (l1 ++ x :: l2 ++ x :: l3) -> False).
    { intros A l1 l2 l3 x H. apply NoDup_remove_2 in H. apply H. apply in_or_app. right. apply in_elt. }
    assert (Sp : forall (f : sdef F -> list str) x y, In x (f a) -> In y (f b) -> exists u v w, flat_map f (r1 ++ a :: q1 ++ b :: q2) = u ++ x :: v ++ y :: w).
    { intros f x y Ix Iy. apply in_split in Ix as (x1 & x2 & Ex). apply in_split in Iy as (y1 & y2 & Ey). exists (flat_map f r1 ++ x1), (x2 ++ flat_map f q1 ++ y1), (y2 ++ flat_map f q2).
      rewrite flat_map_app. cbn [flat_map]. rewrite flat_map_app. cbn [flat_map]. rewrite Ex, Ey. repeat (cbn [app]; rewrite <- ?app_assoc). reflexivity. }
    assert (In1 : forall (f : sdef F -> list str) x, In x (f a) \/ In x (f b) -> In x (flat_map f (r1 ++ a :: q1 ++ b :: q2))).
    { intros f x [H|H]; apply in_flat_map; [exists a|exists b]; (split; [|exact H]); apply in_or_app; right; [left; reflexivity|right; apply in_elt]. }
    apply Hx.
    - intros x H1 H2. destruct (Sp go_types x x H1 H2) as (u & v & w & E). rewrite E in Hn. apply NoDup_app_l in Hn. exact (D2 _ _ _ _ _ Hn).
    - intros x y H1 H2 E. assert (K1 := In1 go_types x (or_introl H1)). assert (K2 := in_map camel _ _ (In1 go_consts y (or_intror H2))). rewrite <- E in K2.
      apply in_split in K1 as (u & v & E1). rewrite E1 in Hn. rewrite <- app_assoc in Hn. cbn [app] in Hn. apply NoDup_remove_2 in Hn. apply Hn. apply in_or_app. right. apply in_or_app. right. exact K2.
    - intros x y H1 H2 E. assert (K1 := In1 go_types y (or_intror H2)). assert (K2 := in_map camel _ _ (In1 go_consts x (or_introl H1))). rewrite E in K2.
      apply in_split in K1 as (u & v & E1). rewrite E1 in Hn. rewrite <- app_assoc in Hn. cbn [app] in Hn. apply NoDup_remove_2 in Hn. apply Hn. apply in_or_app. right. apply in_or_app. right. exact K2.
    - intros x y H1 H2 E. destruct (Sp go_consts x y H1 H2) as (u & v & w & E1). apply NoDup_app_r in Hn. rewrite E1 in Hn. rewrite map_app in Hn. cbn [map] in Hn. rewrite map_app in Hn. cbn [map] in Hn.
      rewrite E in Hn. exact (D2 _ _ _ _ _ Hn). }
  apply NoDup_flat_map.
  - intros d Hd. destruct d as [ | c n g fs | c n g vs | c n g t | c n t v | ]; cbn [go_decls]; try (repeat constructor; cbn; tauto).
    + destruct (Hname _ (camel n) Hd (or_introl eq_refl)) as [U _].
      constructor; [|repeat constructor; cbn; tauto]. intros [E|[]]. destruct (shapes_differ _ _ HNew HPlain (camel n) U U (eq_sym E) eq_refl). discriminate.
    + destruct (Hname _ (camel n) Hd (or_introl eq_refl)) as [U _]. destruct (Hv _ _ _ _ Hd) as [Hvn Hvp]. cbn [app].
      assert (Hsh : forall x, In x (flat_map (fun v => [camel n ++ 95 :: camel (sv_name v); tx "New" ++ camel n ++ 95 :: camel (sv_name v)]) vs) -> shaped (camel n) HCase x \/ shaped (camel n) HNewCase x).
      { intros x Hx. apply in_flat_map in Hx as (v & _ & [<-|[<-|[]]]); [left|right]; eexists; reflexivity. }
      constructor; [|constructor].
      * intros [E|Hx]; [destruct (shapes_differ _ _ HVariant HPlain (camel n) U U E eq_refl); discriminate|].
        destruct (Hsh _ Hx) as [K|K]; [destruct (shapes_differ _ _ HVariant HCase _ U U eq_refl K)|destruct (shapes_differ _ _ HVariant HNewCase _ U U eq_refl K)]; discriminate.
      * intros Hx. destruct (Hsh _ Hx) as [K|K]; [destruct (shapes_differ _ _ HPlain HCase _ U U eq_refl K)|destruct (shapes_differ _ _ HPlain HNewCase _ U U eq_refl K)]; discriminate.
      * assert (Hc : map camel (map sv_name vs) = map sv_name vs) by (rewrite map_map; apply map_ext_in; intros v Hin; rewrite Forall_forall in Hvp; apply type_camel, Hvp, Hin).
        rewrite <- Hc, map_map in Hvn. clear Hc Hsh Hd Hv. induction vs as [|v vs IH]; [constructor|]. cbn [flat_map app map] in *. apply NoDup_cons_iff in Hvn as [Hvn1 Hvn]. apply Forall_cons_iff in Hvp as [_ Hvp].
        assert (Hnot : forall x, x = camel n ++ 95 :: camel (sv_name v) \/ x = tx "New" ++ camel n ++ 95 :: camel (sv_name v) ->
          ~ In x (flat_map (fun v => [camel n ++ 95 :: camel (sv_name v); tx "New" ++ camel n ++ 95 :: camel (sv_name v)]) vs)).
        { intros x Hx Hin. apply in_flat_map in Hin as (v' & Hv' & Hx'). apply Hvn1. replace (camel (sv_name v)) with (camel (sv_name v')); [exact (in_map (fun v => camel (sv_name v)) _ _ Hv')|].
          destruct Hx as [->| ->], Hx' as [E|[E|[]]].
          - apply app_inv_head in E. congruence.
          - destruct (shapes_differ _ _ HNewCase HCase (camel n ++ 95 :: camel (sv_name v)) U U); [cbn; eexists; exact (eq_sym E)|cbn; eexists; reflexivity|discriminate].
          - destruct (shapes_differ _ _ HCase HNewCase (tx "New" ++ camel n ++ 95 :: camel (sv_name v)) U U); [cbn [shaped]; eexists; exact (eq_sym E)|cbn [shaped]; eexists; reflexivity|discriminate].
          - apply app_inv_head, app_inv_head in E. congruence. }
        constructor; [|constructor; [apply Hnot; right; reflexivity|apply IH; assumption]].
        intros [E|Hin]; [|exact (Hnot _ (or_introl eq_refl) Hin)].
        destruct (shapes_differ _ _ HNewCase HCase (camel n ++ 95 :: camel (sv_name v)) U U); [cbn [shaped]; eexists; exact (eq_sym E)|cbn [shaped]; eexists; reflexivity|discriminate].
  - intros a r1 r2 b x E Hb Hxa Hxb. destruct (decls_shaped a x Hxa) as (n & h & Hna & Hsa). destruct (decls_shaped b x Hxb) as (n' & h' & Hnb & Hsb).
    assert (Hda : In a ds) by (rewrite E; apply in_elt). assert (Hdb : In b ds) by (rewrite E; apply in_or_app; right; right; exact Hb).
    destruct (Hname a n Hda Hna) as [U _], (Hname b n' Hdb Hnb) as [V _]. destruct (shapes_differ n n' h h' x U V Hsa Hsb) as [_ <-].
    exact (Hone ds Hn Hp a r1 r2 b n E Hb Hna Hnb).
Qed.
End Decls.
Print Assumptions C62_decls_partial.

(** struct User { name: string @1 } enum Kind { First @1, Second(u8 @1) @2 } type Name = string; const MAX_AGE: u8 = 1; *)
Definition go_sample : list (sdef unit) :=
  [SStruct [] (tx "User") [] (SFields SKNamed [SField [] (tx "name") (SPrim PrString) 1]);
   SEnum [] (tx "Kind") [] [SVariant [] (tx "First") (SFields SKUnit []) 1; SVariant [] (tx "Second") (SFields SKUnnamed [SField [] (tx "n0") (SPrim PrU8) 1]) 2];
   SAlias [] (tx "Name") [] (SPrim PrString); SConst [] (tx "MAX_AGE") (SPrim PrU8) (LInt 1)].
Example C62_decls_ex : flat_map go_decls go_sample =
  [tx "User"; tx "NewUser"; tx "KindVariant"; tx "Kind"; tx "Kind_First"; tx "NewKind_First"; tx "Kind_Second"; tx "NewKind_Second"; tx "Name"; tx "MaxAge"]
  /\ NoDup (flat_map go_decls go_sample).
Proof.
  split; [vm_compute; reflexivity|].
  assert (Hst : forall n, match n with a :: b :: c :: _ => (a =? 78) && (b =? 101) && (c =? 119) | _ => false end = false -> ~ starts (tx "New") n).
  { intros n H (r & ->). cbn in H. discriminate H. }
  assert (Hen : forall n, (length n < 7)%nat -> ~ ends (tx "Variant") n) by (intros n H (r & ->); rewrite app_length in H; cbn in H; lia).
  apply C62_decls_partial.
  - cbn. constructor; [|constructor; [|constructor; [|constructor]]].
    + apply (pt_one 85 115 (tx "er")); [unfold upper; lia|unfold lower; lia|lown].
    + apply (pt_one 75 105 (tx "nd")); [unfold upper; lia|unfold lower; lia|lown].
    + apply (pt_one 78 97 (tx "me")); [unfold upper; lia|unfold lower; lia|lown].
  - vm_compute. repeat (constructor; [cbn; intuition discriminate|]). constructor.
  - replace (flat_map go_types go_sample ++ map camel (flat_map go_consts go_sample)) with [tx "User"; tx "Kind"; tx "Name"; tx "MaxAge"] by (vm_compute; reflexivity).
    repeat (constructor; [split; [apply Hst; reflexivity|apply Hen; cbn; lia]|]). constructor.
  - intros c n g vs Hin. destruct Hin as [E|[E|[E|[E|[]]]]]; try discriminate E. injection E as <- <- <- <-. split.
    + vm_compute. repeat (constructor; [cbn; intuition discriminate|]). constructor.
    + constructor; [|constructor; [|constructor]]; [apply (pt_one 70 105 (tx "rst"))|apply (pt_one 83 101 (tx "cond"))]; solve [unfold upper; lia|unfold lower; lia|lown].
Qed.

(** * Unusual names: accepted schemas whose Go code declares something twice *)
Definition compiles_to {F} (parse_f64 : str -> option F) (i : str) (out : list (sdef F)) : Prop :=
  exists s, schema_parse parse_f64 i = Some s /\ (forall pick chk, validate_schema pick chk s = COk tt) /\
            forall chk, exists c, simplify_schema chk s = Some (c, out).
Definition dup_at {A} (l : list A) (i j : nat) : Prop := (i < j)%nat /\ exists x, nth_error l i = Some x /\ nth_error l j = Some x.
Lemma dup_at_not {A} (l : list A) i j : dup_at l i j -> ~ NoDup l.
Proof.
  intros (H & x & H1 & H2) Hn. rewrite NoDup_nth_error in Hn. assert (i = j); [|lia]. apply Hn; [|congruence]. apply nth_error_Some. congruence.
Qed.

(** Two types, two constants or a type and a constant whose names differ in case only; names that look like generated ones. *)
Theorem C62_decls_refuted : forall (F : Type) (parse_f64 : str -> option F) i,
  In i [tx "struct HTTPServer(u8 @1) struct HttpServer(u8 @1)"; tx "const A_1: u8 = 1;const A1: u8 = 2;"; tx "struct Foo(u8 @1) const FOO: u8 = 1;";
        tx "struct Foo(u8 @1) struct NewFoo(u8 @1)"; tx "enum Kind {A @1} struct KindVariant(u8 @1)"; tx "enum Kind {A @1} enum NewKind {A @1}"] ->
  exists out, compiles_to parse_f64 i out /\ ~ NoDup (flat_map go_decls out).
Proof.
  intros F pf i Hi.
  assert (K : forall i s out n m, schema_parse pf i = Some s -> (forall pick chk, validate_schema pick chk s = COk tt) -> (forall chk, exists c, simplify_schema chk s = Some (c, out)) ->
    dup_at (flat_map go_decls out) n m -> exists out, compiles_to pf i out /\ ~ NoDup (flat_map go_decls out)).
  { intros i' s out n m H1 H2 H3 H4. exists out. split; [exists s; auto|exact (dup_at_not _ _ _ H4)]. }
  destruct Hi as [<-|[<-|[<-|[<-|[<-|[<-|[]]]]]]].
  - eapply (K _ _ _ 0%nat 2%nat); [vm_compute; reflexivity|intros pick []; reflexivity|intros []; eexists; reflexivity|]. split; [lia|]. vm_compute. eexists. split; reflexivity.
  - eapply (K _ _ _ 0%nat 1%nat); [vm_compute; reflexivity|intros pick []; reflexivity|intros []; eexists; reflexivity|]. split; [lia|]. vm_compute. eexists. split; reflexivity.
  - eapply (K _ _ _ 0%nat 2%nat); [vm_compute; reflexivity|intros pick []; reflexivity|intros []; eexists; reflexivity|]. split; [lia|]. vm_compute. eexists. split; reflexivity.
  - eapply (K _ _ _ 1%nat 2%nat); [vm_compute; reflexivity|intros pick []; reflexivity|intros []; eexists; reflexivity|]. split; [lia|]. vm_compute. eexists. split; reflexivity.
  - eapply (K _ _ _ 0%nat 4%nat); [vm_compute; reflexivity|intros pick []; reflexivity|intros []; eexists; reflexivity|]. split; [lia|]. vm_compute. eexists. split; reflexivity.
  - eapply (K _ _ _ 3%nat 6%nat); [vm_compute; reflexivity|intros pick []; reflexivity|intros []; eexists; reflexivity|]. split; [lia|]. vm_compute. eexists. split; reflexivity.
Qed.
Print Assumptions C62_decls_refuted.

(** Fields that differ in underscores only, a field called like a method, a field called like a keyword of Go (which becomes
    a parameter). *)
Theorem C62_fields_refuted : forall (F : Type) (parse_f64 : str -> option F),
  (forall i, In i [tx "struct A {a_1: u8 @1,a1: u8 @2}"; tx "struct A {a_b: u8 @1,a__b: u8 @2}"; tx "struct A {encode: u8 @1}"] ->
   exists c n g fs, compiles_to parse_f64 i [SStruct c n g fs] /\ ~ NoDup (go_members fs)) /\
  (exists c n g fs, compiles_to parse_f64 (tx "struct A {type: u8 @1}") [SStruct c n g fs] /\ exists p, In p (go_params fs) /\ In p go_keywords).
Proof.
  intros F pf. split.
  - intros i Hi.
    assert (K : forall i s c n g fs k m, schema_parse pf i = Some s -> (forall pick chk, validate_schema pick chk s = COk tt) -> (forall chk, exists c', simplify_schema chk s = Some (c', [SStruct c n g fs])) ->
      dup_at (go_members fs) k m -> exists c n g fs, compiles_to pf i [SStruct c n g fs] /\ ~ NoDup (go_members fs)).
    { intros i' s c n g fs k m H1 H2 H3 H4. exists c, n, g, fs. split; [exists s; auto|exact (dup_at_not _ _ _ H4)]. }
    destruct Hi as [<-|[<-|[<-|[]]]].
    + eapply (K _ _ _ _ _ _ 0%nat 1%nat); [vm_compute; reflexivity|intros pick []; reflexivity|intros []; eexists; reflexivity|]. split; [lia|]. vm_compute. eexists. split; reflexivity.
    + eapply (K _ _ _ _ _ _ 0%nat 1%nat); [vm_compute; reflexivity|intros pick []; reflexivity|intros []; eexists; reflexivity|]. split; [lia|]. vm_compute. eexists. split; reflexivity.
    + eapply (K _ _ _ _ _ _ 0%nat 1%nat); [vm_compute; reflexivity|intros pick []; reflexivity|intros []; eexists; reflexivity|]. split; [lia|]. vm_compute. eexists. split; reflexivity.
  - do 4 eexists. split; [eexists; split; [vm_compute; reflexivity|]; split; [intros pick []; reflexivity|intros []; eexists; reflexivity]|].
    exists (tx "type"). split; vm_compute; [left; reflexivity|tauto].
Qed.
Print Assumptions C62_fields_refuted.
