(** The UTF-8 check of string decoding against the definition of UTF-8 (RFC 3629, section 3):
    a separate specification, then the proof that [utf8_ok] accepts exactly its image. *)
From Verif Require Import Base Varint Wire WireProofs.
Require Import ZifyN ZifyBool.
Local Open Scope N_scope.

(** The encoding of one Unicode scalar value. *)
Definition utf8_of (c : N) : list N :=
  if c <? 128 then [c]
  else if c <? 2048 then [192 + c / 64; 128 + c mod 64]
  else if c <? 65536 then [224 + c / 4096; 128 + c / 64 mod 64; 128 + c mod 64]
  else [240 + c / 262144; 128 + c / 4096 mod 64; 128 + c / 64 mod 64; 128 + c mod 64].
Definition unicode_scalar (c : N) : Prop := c < 55296 \/ 57344 <= c < 1114112.
(** The byte strings that are the UTF-8 encoding of a text. *)
Definition Utf8 (b : list N) : Prop :=
  exists cs, Forall unicode_scalar cs /\ b = concat (map utf8_of cs).

Ltac divs := Z.to_euclidean_division_equations; lia.
Ltac Zify.zify_post_hook ::= Z.to_euclidean_division_equations.

Lemma utf8_one c l : unicode_scalar c -> utf8_ok (utf8_of c ++ l) = utf8_ok l.
Proof.
  intros Hc. unfold unicode_scalar in Hc. unfold utf8_of.
  destruct (c <? 128) eqn:E1; [cbn [app utf8_ok]; rewrite E1; reflexivity|].
  destruct (c <? 2048) eqn:E2.
  { cbn [app utf8_ok]. unfold cont, in_range.
    replace (192 + c / 64 <? 128) with false by lia.
    replace ((194 <=? 192 + c / 64) && (192 + c / 64 <=? 223)) with true by lia.
    replace ((128 <=? 128 + c mod 64) && (128 + c mod 64 <=? 191)) with true by lia. reflexivity. }
  destruct (c <? 65536) eqn:E3.
  { cbn [app utf8_ok]. unfold cont, in_range.
    set (x := c / 64 mod 64). set (y := c mod 64).
    assert (Hx : x < 64) by (apply N.mod_lt; lia). assert (Hy : y < 64) by (apply N.mod_lt; lia).
    assert (Hxy : c = 4096 * (c / 4096) + 64 * x + y).
    { subst x y. pose proof (N.div_mod' c 64). pose proof (N.div_mod' (c / 64) 64). rewrite N.div_div in * by lia. lia. }
    clearbody x y. set (z := c / 4096) in *. clearbody z.
    replace (224 + z <? 128) with false by lia.
    replace ((194 <=? 224 + z) && (224 + z <=? 223)) with false by lia.
    replace ((128 <=? 128 + y) && (128 + y <=? 191)) with true by lia.
    destruct (224 + z =? 224) eqn:F1; [replace ((160 <=? 128 + x) && (128 + x <=? 191)) with true by lia; reflexivity|].
    destruct ((225 <=? 224 + z) && (224 + z <=? 236)) eqn:F2;
      [replace ((128 <=? 128 + x) && (128 + x <=? 191)) with true by lia; reflexivity|].
    destruct (224 + z =? 237) eqn:F3; [replace ((128 <=? 128 + x) && (128 + x <=? 159)) with true by lia; reflexivity|].
    replace ((238 <=? 224 + z) && (224 + z <=? 239)) with true by lia.
    replace ((128 <=? 128 + x) && (128 + x <=? 191)) with true by lia. reflexivity. }
  cbn [app utf8_ok]. unfold cont, in_range.
  set (x := c / 64 mod 64). set (y := c mod 64). set (w := c / 4096 mod 64).
  assert (Hx : x < 64) by (apply N.mod_lt; lia). assert (Hy : y < 64) by (apply N.mod_lt; lia).
  assert (Hw : w < 64) by (apply N.mod_lt; lia).
  assert (Hxy : c = 262144 * (c / 262144) + 4096 * w + 64 * x + y).
  { subst x y w. pose proof (N.div_mod' c 64). pose proof (N.div_mod' (c / 64) 64). rewrite N.div_div in * by lia.
    pose proof (N.div_mod' (c / 4096) 64). rewrite N.div_div in * by lia. lia. }
  clearbody x y w. set (z := c / 262144) in *. clearbody z.
  replace (240 + z <? 128) with false by lia.
  replace ((194 <=? 240 + z) && (240 + z <=? 223)) with false by lia.
  replace (240 + z =? 224) with false by lia.
  replace ((225 <=? 240 + z) && (240 + z <=? 236)) with false by lia.
  replace (240 + z =? 237) with false by lia.
  replace ((238 <=? 240 + z) && (240 + z <=? 239)) with false by lia.
  replace ((128 <=? 128 + y) && (128 + y <=? 191)) with true by lia.
  replace ((128 <=? 128 + x) && (128 + x <=? 191)) with true by lia.
  destruct (240 + z =? 240) eqn:F1; [replace ((144 <=? 128 + w) && (128 + w <=? 191)) with true by lia; reflexivity|].
  destruct ((241 <=? 240 + z) && (240 + z <=? 243)) eqn:F2;
    [replace ((128 <=? 128 + w) && (128 + w <=? 191)) with true by lia; reflexivity|].
  replace (240 + z =? 244) with true by lia.
  replace ((128 <=? 128 + w) && (128 + w <=? 143)) with true by lia. reflexivity.
Qed.

Lemma utf8_cons c l : unicode_scalar c -> Utf8 l -> Utf8 (utf8_of c ++ l).
Proof. intros Hc (cs & Hcs & ->). exists (c :: cs). split; [constructor; assumption|reflexivity]. Qed.

Lemma utf8_two a b : 194 <= a <= 223 -> 128 <= b <= 191 ->
  exists c, unicode_scalar c /\ utf8_of c = [a; b].
Proof.
  intros Ha Hb. exists (64 * (a - 192) + (b - 128)).
  assert (Hd : (64 * (a - 192) + (b - 128)) / 64 = a - 192) by (symmetry; apply (N.div_unique _ _ _ (b - 128)); lia).
  assert (Hm : (64 * (a - 192) + (b - 128)) mod 64 = b - 128) by (symmetry; apply (N.mod_unique _ _ (a - 192)); lia).
  split; [unfold unicode_scalar; lia|]. unfold utf8_of.
  replace (_ <? 128) with false by lia. replace (_ <? 2048) with true by lia.
  rewrite Hd, Hm. f_equal; [lia|]. f_equal. lia.
Qed.
Lemma utf8_three a b c0 : 224 <= a <= 239 -> 128 <= b <= 191 -> 128 <= c0 <= 191 ->
  (a = 224 -> 160 <= b) -> (a = 237 -> b <= 159) ->
  exists c, unicode_scalar c /\ utf8_of c = [a; b; c0].
Proof.
  intros Ha Hb Hc H0 H1. exists (4096 * (a - 224) + 64 * (b - 128) + (c0 - 128)).
  set (c := 4096 * (a - 224) + 64 * (b - 128) + (c0 - 128)).
  assert (Hd : c / 64 = 64 * (a - 224) + (b - 128)) by (symmetry; apply (N.div_unique _ _ _ (c0 - 128)); subst c; lia).
  assert (Hm : c mod 64 = c0 - 128) by (symmetry; apply (N.mod_unique _ _ (64 * (a - 224) + (b - 128))); subst c; lia).
  assert (Hd2 : c / 4096 = a - 224) by (symmetry; apply (N.div_unique _ _ _ (64 * (b - 128) + (c0 - 128))); subst c; lia).
  assert (Hm2 : c / 64 mod 64 = b - 128) by (rewrite Hd; symmetry; apply (N.mod_unique _ _ (a - 224)); lia).
  split; [unfold unicode_scalar; subst c; lia|]. unfold utf8_of.
  replace (c <? 128) with false by (subst c; lia). replace (c <? 2048) with false by (subst c; lia).
  replace (c <? 65536) with true by (subst c; lia).
  rewrite Hm, Hd2, Hm2. f_equal; [lia|]. f_equal; [lia|]. f_equal. lia.
Qed.
Lemma utf8_four a b c0 d : 240 <= a <= 244 -> 128 <= b <= 191 -> 128 <= c0 <= 191 -> 128 <= d <= 191 ->
  (a = 240 -> 144 <= b) -> (a = 244 -> b <= 143) ->
  exists c, unicode_scalar c /\ utf8_of c = [a; b; c0; d].
Proof.
  intros Ha Hb Hc He H0 H1. exists (262144 * (a - 240) + 4096 * (b - 128) + 64 * (c0 - 128) + (d - 128)).
  set (c := 262144 * (a - 240) + 4096 * (b - 128) + 64 * (c0 - 128) + (d - 128)).
  assert (Hd : c / 64 = 4096 * (a - 240) + 64 * (b - 128) + (c0 - 128)) by (symmetry; apply (N.div_unique _ _ _ (d - 128)); subst c; lia).
  assert (Hm : c mod 64 = d - 128) by (symmetry; apply (N.mod_unique _ _ (4096 * (a - 240) + 64 * (b - 128) + (c0 - 128))); subst c; lia).
  assert (Hd2 : c / 4096 = 64 * (a - 240) + (b - 128)) by (symmetry; apply (N.div_unique _ _ _ (64 * (c0 - 128) + (d - 128))); subst c; lia).
  assert (Hm2 : c / 64 mod 64 = c0 - 128) by (rewrite Hd; symmetry; apply (N.mod_unique _ _ (64 * (a - 240) + (b - 128))); lia).
  assert (Hm3 : c / 4096 mod 64 = b - 128) by (rewrite Hd2; symmetry; apply (N.mod_unique _ _ (a - 240)); lia).
  assert (Hd3 : c / 262144 = a - 240) by (symmetry; apply (N.div_unique _ _ _ (4096 * (b - 128) + 64 * (c0 - 128) + (d - 128))); subst c; lia).
  split; [unfold unicode_scalar; subst c; lia|]. unfold utf8_of.
  replace (c <? 128) with false by (subst c; lia). replace (c <? 2048) with false by (subst c; lia).
  replace (c <? 65536) with false by (subst c; lia).
  rewrite Hm, Hm2, Hm3, Hd3. f_equal; [lia|]. f_equal; [lia|]. f_equal; [lia|]. f_equal. lia.
Qed.

Lemma utf8_ok_image n : forall l, (length l <= n)%nat -> utf8_ok l = true -> Utf8 l.
Proof.
  induction n as [|n IH]; intros l Hn H.
  { destruct l; [exists []; split; [constructor|reflexivity]|cbn in Hn; lia]. }
  destruct l as [|a l]; [exists []; split; [constructor|reflexivity]|].
  cbn [utf8_ok] in H. cbn [length] in Hn. destruct (a <? 128) eqn:E1.
  { change (a :: l) with ([a] ++ l). replace [a] with (utf8_of a) by (unfold utf8_of; rewrite E1; reflexivity).
    apply utf8_cons; [unfold unicode_scalar; lia|apply IH; [lia|exact H]]. }
  assert (K : forall p t, (length t <= n)%nat -> utf8_ok t = true -> (exists c, unicode_scalar c /\ utf8_of c = p) -> Utf8 (p ++ t)).
  { intros p t Ht Ho (c & Hc & <-). apply utf8_cons; [exact Hc|apply IH; assumption]. }
  unfold cont, in_range in H. destruct l as [|b l]; [discriminate|]. cbn [length] in Hn.
  destruct ((194 <=? a) && (a <=? 223)) eqn:E2.
  { apply andb_true_iff in H as [H1 H]. apply (K [a; b] l); [lia|exact H|apply utf8_two; lia]. }
  destruct l as [|c l]; [discriminate|]. cbn [length] in Hn.
  assert (K3 : forall lo hi, ((lo <=? b) && (b <=? hi)) && ((128 <=? c) && (c <=? 191)) && utf8_ok l = true ->
     224 <= a <= 239 -> 128 <= lo -> hi <= 191 -> (a = 224 -> 160 <= lo) -> (a = 237 -> hi <= 159) -> Utf8 (a :: b :: c :: l)).
  { intros lo hi G Ha Hlo Hhi G1 G2. apply andb_true_iff in G as [G G3].
    apply (K [a; b; c] l); [lia|exact G3|apply utf8_three; lia]. }
  destruct (a =? 224) eqn:E3; [apply (K3 _ _ H); lia|].
  destruct ((225 <=? a) && (a <=? 236)) eqn:E4; [apply (K3 _ _ H); lia|].
  destruct (a =? 237) eqn:E5; [apply (K3 _ _ H); lia|].
  destruct ((238 <=? a) && (a <=? 239)) eqn:E6; [apply (K3 _ _ H); lia|].
  destruct l as [|d l]; [discriminate|]. cbn [length] in Hn.
  assert (K4 : forall lo hi, ((lo <=? b) && (b <=? hi)) && ((128 <=? c) && (c <=? 191)) && ((128 <=? d) && (d <=? 191)) && utf8_ok l = true ->
     240 <= a <= 244 -> 128 <= lo -> hi <= 191 -> (a = 240 -> 144 <= lo) -> (a = 244 -> hi <= 143) -> Utf8 (a :: b :: c :: d :: l)).
  { intros lo hi G Ha Hlo Hhi G1 G2. apply andb_true_iff in G as [G G3].
    apply (K [a; b; c; d] l); [lia|exact G3|apply utf8_four; lia]. }
  destruct (a =? 240) eqn:E7; [apply (K4 _ _ H); lia|].
  destruct ((241 <=? a) && (a <=? 243)) eqn:E8; [apply (K4 _ _ H); lia|].
  destruct (a =? 244) eqn:E9; [apply (K4 _ _ H); lia|discriminate].
Qed.

Theorem utf8_ok_iff l : utf8_ok l = true <-> Utf8 l.
Proof.
  split; [apply (utf8_ok_image (length l)); lia|].
  intros (cs & Hcs & ->). induction Hcs as [|c cs Hc Hcs IH]; [reflexivity|].
  cbn [map concat]. rewrite utf8_one by exact Hc. exact IH.
Qed.

(** Texts are determined by their encoding. *)
Lemma cons_eq (a b : N) l m : a :: l = b :: m -> a = b /\ l = m.
Proof. intros H. split; congruence. Qed.
Lemma utf8_of_inj c d x y : unicode_scalar c -> unicode_scalar d -> utf8_of c ++ x = utf8_of d ++ y -> c = d /\ x = y.
Proof.
  unfold unicode_scalar. intros Hc Hd.
  assert (D : forall n, n = 64 * (n / 64) + n mod 64 /\ n mod 64 < 64) by (intros n; split; [apply N.div_mod'|apply N.mod_lt; lia]).
  pose proof (D c) as [C1 C2]. pose proof (D (c / 64)) as [C3 C4]. pose proof (D (c / 64 / 64)) as [C5 C6].
  pose proof (D d) as [D1 D2]. pose proof (D (d / 64)) as [D3 D4]. pose proof (D (d / 64 / 64)) as [D5 D6].
  rewrite (N.div_div c 64 64) in * by lia. rewrite (N.div_div d 64 64) in * by lia. change (64 * 64) with 4096 in *.
  rewrite (N.div_div c 4096 64) in * by lia. rewrite (N.div_div d 4096 64) in * by lia. change (4096 * 64) with 262144 in *. clear D.
  unfold utf8_of.
  set (c1 := c mod 64) in *. set (c2 := c / 64 mod 64) in *. set (c3 := c / 4096 mod 64) in *.
  set (c4 := c / 64) in *. set (c5 := c / 4096) in *. set (c6 := c / 262144) in *.
  set (d1 := d mod 64) in *. set (d2 := d / 64 mod 64) in *. set (d3 := d / 4096 mod 64) in *.
  set (d4 := d / 64) in *. set (d5 := d / 4096) in *. set (d6 := d / 262144) in *.
  clearbody c1 c2 c3 c4 c5 c6 d1 d2 d3 d4 d5 d6.
  destruct (c <? 128) eqn:E1; [|destruct (c <? 2048) eqn:E2; [|destruct (c <? 65536) eqn:E3]];
  (destruct (d <? 128) eqn:F1; [|destruct (d <? 2048) eqn:F2; [|destruct (d <? 65536) eqn:F3]]);
  cbn [app]; intros H; repeat match goal with G : _ :: _ = _ :: _ |- _ => apply cons_eq in G as [? G] end;
  try (exfalso; lia); (split; [lia|exact H]).
Qed.
Lemma utf8_inj a : forall b, Forall unicode_scalar a -> Forall unicode_scalar b ->
  concat (map utf8_of a) = concat (map utf8_of b) -> a = b.
Proof.
  assert (Hne : forall c l, utf8_of c ++ l <> []).
  { intros c l. unfold utf8_of. destruct (c <? 128), (c <? 2048), (c <? 65536); discriminate. }
  induction a as [|c a IH]; intros [|d b] Ha Hb H; cbn [map concat] in H; [reflexivity|symmetry in H; destruct (Hne _ _ H)|destruct (Hne _ _ H)|].
  inversion Ha; inversion Hb; subst. apply utf8_of_inj in H as [-> H]; [|assumption|assumption]. f_equal. apply IH; assumption.
Qed.
