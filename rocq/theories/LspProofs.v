(** Lemmas on the line index: conversion between offsets and positions. *)
From Verif Require Import Base Syntax Lsp LspSpec.
Local Open Scope N_scope.

Lemma len8_pos c : 1 <= len8 c <= 4.
Proof. unfold len8. destruct (c <? 128), (c <? 2048), (c <? 65536); lia. Qed.
Lemma bytes_len_cons c t : bytes_len (c :: t) = len8 c + bytes_len t.
Proof. reflexivity. Qed.
Lemma bytes_len_app a b : bytes_len (a ++ b) = bytes_len a + bytes_len b.
Proof. induction a as [|c a IH]; [reflexivity|]. cbn [app]. rewrite !bytes_len_cons, IH. lia. Qed.
Lemma len8_nl c : (c =? nl) = true -> len8 c = 1.
Proof. intros H. apply N.eqb_eq in H. subst. reflexivity. Qed.
Lemma units_pos enc c : 1 <= units enc c.
Proof. pose proof (len8_pos c). destruct enc as [[]|]; cbn; [destruct (c <? 65536); lia|lia|lia]. Qed.
Lemma units_wide e c : units (Some e) c = wide_len e (len8 c).
Proof.
  unfold units, wide_len, len8. destruct e; [|reflexivity].
  destruct (N.ltb_spec c 128), (N.ltb_spec c 2048), (N.ltb_spec c 65536); cbn; try reflexivity; lia.
Qed.
Lemma wide_le e c : 1 <= wide_len e (len8 c) <= len8 c.
Proof. unfold wide_len, len8. destruct e; destruct (c <? 128), (c <? 2048), (c <? 65536); cbn; lia. Qed.
Lemma wide_one e c : len8 c = 1 -> wide_len e (len8 c) = 1.
Proof. intros ->. destruct e; reflexivity. Qed.

Lemma advance_app enc p a b : advance enc p (a ++ b) = advance enc (advance enc p a) b.
Proof. revert p. induction a as [|c a IH]; intros p; cbn [app advance]; [reflexivity|apply IH]. Qed.

(** Induction on a text together with the index of it. *)
Lemma analyze_cons off line col c t :
  analyze off line col (c :: t) =
  (if c =? nl then (off + 1 :: fst (analyze (off + 1) (line + 1) 0 t), snd (analyze (off + 1) (line + 1) 0 t))
   else (fst (analyze (off + len8 c) line (col + len8 c) t),
         if len8 c =? 1 then snd (analyze (off + len8 c) line (col + len8 c) t)
         else (line, WChar col (col + len8 c)) :: snd (analyze (off + len8 c) line (col + len8 c) t))).
Proof.
  cbn [analyze]. destruct (c =? nl).
  - destruct (analyze (off + 1) (line + 1) 0 t). reflexivity.
  - destruct (analyze (off + len8 c) line (col + len8 c) t). reflexivity.
Qed.

Lemma newlines_after t off line col x : In x (fst (analyze off line col t)) -> off < x.
Proof.
  revert off line col. induction t as [|c t IH]; intros off line col; [intros []|].
  rewrite analyze_cons. pose proof (len8_pos c). destruct (c =? nl); cbn [fst].
  - intros [<-|H']; [lia|]. apply IH in H'. lia.
  - intros H'. apply IH in H'. lia.
Qed.

Lemma line_index_lines pre : forall off line col suf,
  let ls := fst (analyze off line col (pre ++ suf)) in
  let p := advance None (Pos line col) pre in
  line <= p_line p
  /\ partition_point ls (off + bytes_len pre) = p_line p - line
  /\ (if p_line p =? line then p_char p = col + bytes_len pre
      else nth_error ls (N.to_nat (p_line p - line - 1)) = Some (off + bytes_len pre - p_char p)
           /\ p_char p <= bytes_len pre).
Proof.
  induction pre as [|c pre IH]; intros off line col suf.
  - cbn [app advance p_line p_char bytes_len map sumN fold_right]. rewrite N.eqb_refl.
    split; [lia|]. split; [|cbn; lia]. change (bytes_len []) with 0. rewrite N.add_0_r, N.sub_diag.
    pose proof (newlines_after suf off line col) as H. destruct (fst (analyze off line col suf)) as [|x l]; [reflexivity|].
    cbn [partition_point]. specialize (H x (or_introl eq_refl)). destruct (N.leb_spec x off); [lia|reflexivity].
  - cbn [app]. rewrite analyze_cons, bytes_len_cons. cbn [advance p_line p_char].
    destruct (c =? nl) eqn:Ec; cbn [fst].
    + rewrite (len8_nl c Ec). specialize (IH (off + 1) (line + 1) 0 suf). cbn zeta in IH.
      destruct IH as (H1 & H2 & H3). set (p := advance None (Pos (line + 1) 0) pre) in *.
      split; [lia|]. cbn [partition_point]. destruct (N.leb_spec (off + 1) (off + (1 + bytes_len pre))); [|lia].
      replace (off + (1 + bytes_len pre)) with (off + 1 + bytes_len pre) by lia. rewrite H2. split; [lia|].
      destruct (N.eqb_spec (p_line p) line); [lia|].
      destruct (N.eqb_spec (p_line p) (line + 1)) as [E|E].
      * rewrite E. replace (N.to_nat (line + 1 - line - 1)) with O by lia. cbn [nth_error]. rewrite H3. split; [f_equal; lia|lia].
      * destruct H3 as [H3 H4]. split; [|lia].
        replace (N.to_nat (p_line p - line - 1)) with (S (N.to_nat (p_line p - (line + 1) - 1))) by lia.
        cbn [nth_error]. exact H3.
    + change (units None c) with (len8 c).
      specialize (IH (off + len8 c) line (col + len8 c) suf). cbn zeta in IH.
      destruct IH as (H1 & H2 & H3). set (p := advance None (Pos line (col + len8 c)) pre) in *.
      split; [lia|]. replace (off + (len8 c + bytes_len pre)) with (off + len8 c + bytes_len pre) by lia.
      rewrite H2. split; [lia|].
      destruct (N.eqb_spec (p_line p) line); [lia|]. destruct H3 as [H3 H4]. split; [exact H3|lia].
Qed.

(** Multi-byte chars of the current line start at or after the current column; none belongs
    to an earlier line. *)
Lemma wide_after t off line col l w :
  In (l, w) (snd (analyze off line col t)) -> line <= l /\ (l = line -> col <= wc_start w) /\ wc_start w < wc_end w.
Proof.
  revert off line col. induction t as [|c t IH]; intros off line col; [intros []|].
  rewrite analyze_cons. pose proof (len8_pos c). destruct (c =? nl); cbn [snd].
  - intros H'. apply IH in H'. lia.
  - destruct (len8 c =? 1).
    + intros H'. apply IH in H'. lia.
    + intros [H'|H']; [|apply IH in H'; lia]. assert (l = line) by congruence.
      assert (w = WChar col (col + len8 c)) as -> by congruence. cbn. lia.
Qed.

Definition of_line (l : N) (ws : list (N * wchar)) : list wchar := map snd (filter (fun x => fst x =? l) ws).
Lemma of_line_in l ws w : In w (of_line l ws) -> In (l, w) ws.
Proof.
  unfold of_line. intros H. apply in_map_iff in H as ([l' w'] & <- & H). apply filter_In in H as [H E]. cbn in *.
  apply N.eqb_eq in E. subst. exact H.
Qed.
Lemma of_line_cons l l' w ws : of_line l ((l', w) :: ws) = if l' =? l then w :: of_line l ws else of_line l ws.
Proof. unfold of_line. cbn [filter fst]. destruct (l' =? l); reflexivity. Qed.

Lemma to_wide_stop e ws col : (forall w, In w ws -> col < wc_end w) -> to_wide_loop e ws col col = Some col.
Proof.
  intros H. destruct ws as [|w ws]; [reflexivity|]. cbn [to_wide_loop].
  specialize (H w (or_introl eq_refl)). destruct (N.leb_spec (wc_end w) col); [lia|reflexivity].
Qed.
Lemma to_wide_stop' e ws col acc : (forall w, In w ws -> col < wc_end w) -> to_wide_loop e ws col acc = Some acc.
Proof.
  intros H. destruct ws as [|w ws]; [reflexivity|]. cbn [to_wide_loop].
  specialize (H w (or_introl eq_refl)). destruct (N.leb_spec (wc_end w) col); [lia|reflexivity].
Qed.

Lemma advance_lines e pre : forall line col colw,
  p_line (advance (Some e) (Pos line colw) pre) = p_line (advance None (Pos line col) pre).
Proof.
  induction pre as [|c pre IH]; intros line col colw; [reflexivity|]. cbn [advance p_line p_char].
  destruct (c =? nl); apply IH.
Qed.
Lemma advance_line_ge enc pre : forall p, p_line p <= p_line (advance enc p pre).
Proof.
  induction pre as [|c pre IH]; intros p; [cbn; lia|]. cbn [advance].
  destruct (c =? nl); [specialize (IH (Pos (p_line p + 1) 0))|specialize (IH (Pos (p_line p) (p_char p + units enc c)))]; cbn [p_line] in IH; lia.
Qed.
Lemma advance_char_ge enc pre : forall p, p_line (advance enc p pre) = p_line p -> p_char p <= p_char (advance enc p pre).
Proof.
  induction pre as [|c pre IH]; intros p Hl; [cbn; lia|]. cbn [advance] in *.
  destruct (c =? nl).
  - pose proof (advance_line_ge enc pre (Pos (p_line p + 1) 0)). cbn [p_line] in *. lia.
  - specialize (IH _ Hl). cbn [p_char] in *. lia.
Qed.

(** Wide columns: the loops of [to_wide] and [to_utf8] are inverse to each other. *)
Lemma wide_columns e pre : forall off line col colw suf, colw <= col -> col + bytes_len pre < 2 ^ 32 ->
  let ws := snd (analyze off line col (pre ++ suf)) in
  let p := advance None (Pos line col) pre in
  let q := advance (Some e) (Pos line colw) pre in
  to_wide_loop e (of_line (p_line p) ws) (p_char p)
     (if p_line p =? line then p_char p - (col - colw) else p_char p) = Some (p_char q)
  /\ to_utf8_loop e (of_line (p_line p) ws) (if p_line p =? line then p_char q + (col - colw) else p_char q) = Some (p_char p)
  /\ (if p_line p =? line then p_char q + (col - colw) else p_char q) <= p_char p
  /\ p_char p <= col + bytes_len pre.
Proof.
  induction pre as [|c pre IH]; intros off line col colw suf Hc Hb.
  - cbn [app advance p_line p_char]. rewrite N.eqb_refl. change (bytes_len []) with 0.
    assert (Hw : forall w, In w (of_line line (snd (analyze off line col suf))) -> col <= wc_start w < wc_end w).
    { intros w H. apply of_line_in, wide_after in H. lia. }
    split; [|split; [|lia]].
    + rewrite to_wide_stop'; [f_equal; lia|]. intros w H. apply Hw in H. lia.
    + replace (colw + (col - colw)) with col by lia.
      destruct (of_line line (snd (analyze off line col suf))) as [|w ws]; [reflexivity|]. cbn [to_utf8_loop].
      specialize (Hw w (or_introl eq_refl)). destruct (N.ltb_spec (wc_start w) col); [lia|reflexivity].
  - cbn [app]. rewrite analyze_cons. rewrite bytes_len_cons in Hb |- *. cbn [advance p_line p_char].
    pose proof (len8_pos c) as Hl.
    destruct (c =? nl) eqn:Ec; cbn [snd].
    + rewrite (len8_nl c Ec) in *.
      specialize (IH (off + 1) (line + 1) 0 0 suf). cbn zeta in IH. specialize (IH ltac:(lia) ltac:(lia)).
      pose proof (advance_line_ge None pre (Pos (line + 1) 0)) as Hge. cbn [p_line] in Hge.
      set (p := advance None (Pos (line + 1) 0) pre) in *. set (q := advance (Some e) (Pos (line + 1) 0) pre) in *.
      destruct (N.eqb_spec (p_line p) line); [lia|].
      destruct (N.eqb_spec (p_line p) (line + 1)).
      * rewrite !N.sub_0_r, !N.add_0_r in IH. destruct IH as (H1 & H2 & H3 & H4). repeat split; [exact H1|exact H2|lia|lia].
      * destruct IH as (H1 & H2 & H3 & H4). repeat split; [exact H1|exact H2|lia|lia].
    + rewrite units_wide. change (units None c) with (len8 c). pose proof (wide_le e c) as Hw.
      specialize (IH (off + len8 c) line (col + len8 c) (colw + wide_len e (len8 c)) suf). cbn zeta in IH.
      specialize (IH ltac:(lia) ltac:(lia)).
      pose proof (advance_line_ge None pre (Pos line (col + len8 c))) as Hge. cbn [p_line] in Hge.
      pose proof (advance_char_ge None pre (Pos line (col + len8 c))) as Hch. cbn [p_line p_char] in Hch.
      pose proof (advance_char_ge (Some e) pre (Pos line (colw + wide_len e (len8 c)))) as Hcq. cbn [p_line p_char] in Hcq.
      rewrite (advance_lines e pre line (col + len8 c)) in Hcq.
      set (p := advance None (Pos line (col + len8 c)) pre) in *.
      set (q := advance (Some e) (Pos line (colw + wide_len e (len8 c))) pre) in *.
      set (ws := snd (analyze (off + len8 c) line (col + len8 c) (pre ++ suf))) in *.
      destruct IH as (H1 & H2 & H3 & H4).
      destruct (N.eqb_spec (p_line p) line) as [E|E].
      * specialize (Hch E). specialize (Hcq E).
        assert (Hws : of_line (p_line p) (if len8 c =? 1 then ws else (line, WChar col (col + len8 c)) :: ws)
                      = if len8 c =? 1 then of_line (p_line p) ws else WChar col (col + len8 c) :: of_line (p_line p) ws).
        { destruct (len8 c =? 1); [reflexivity|]. rewrite of_line_cons, E, N.eqb_refl. reflexivity. }
        rewrite Hws. destruct (N.eqb_spec (len8 c) 1) as [E1|E1].
        -- pose proof (wide_one e c E1) as Hw1. rewrite E1, Hw1 in *. 
           replace (col + 1 - (colw + 1)) with (col - colw) in * by lia. repeat split; [exact H1|exact H2|lia|lia].
        -- cbn [to_wide_loop to_utf8_loop wc_end wc_start]. unfold wc_len. cbn [wc_end wc_start].
           replace (col + len8 c - col) with (len8 c) by lia.
           destruct (N.leb_spec (col + len8 c) (p_char p)); [|lia].
           destruct (N.leb_spec (len8 c - wide_len e (len8 c)) (p_char p - (col - colw))); [|lia].
           destruct (N.ltb_spec col (p_char q + (col - colw))); [|lia].
           replace (p_char p - (col - colw) - (len8 c - wide_len e (len8 c)))
             with (p_char p - (col + len8 c - (colw + wide_len e (len8 c)))) by lia.
           replace (p_char q + (col - colw) + (len8 c - wide_len e (len8 c)))
             with (p_char q + (col + len8 c - (colw + wide_len e (len8 c)))) by lia.
           destruct (N.ltb_spec (p_char q + (col + len8 c - (colw + wide_len e (len8 c)))) (2 ^ 32)); [|lia].
           repeat split; [exact H1|exact H2|lia|lia].
      * assert (Hws : of_line (p_line p) (if len8 c =? 1 then ws else (line, WChar col (col + len8 c)) :: ws) = of_line (p_line p) ws).
        { destruct (len8 c =? 1); [reflexivity|]. rewrite of_line_cons. destruct (N.eqb_spec line (p_line p)); [congruence|reflexivity]. }
        rewrite Hws. repeat split; [exact H1|exact H2|lia|lia].
Qed.

(** * Positions of an index *)

Definition index_of (enc : option wenc) (t : str) (ix : index) : Prop :=
  exists i, li_new t = Some i /\ ix = Index i enc.

Lemma li_new_fields t i : li_new t = Some i ->
  bytes_len t < 2 ^ 32 /\ li_newlines i = fst (analyze 0 0 0 t) /\ li_wide i = snd (analyze 0 0 0 t) /\ li_len i = bytes_len t.
Proof.
  unfold li_new. destruct (N.ltb_spec (bytes_len t) (2 ^ 32)) as [Hlt|]; [|discriminate].
  destruct (analyze 0 0 0 t) as [ls ws]. intros Hi. assert (i = LineIndex ls ws (bytes_len t)) as -> by congruence.
  cbn [li_newlines li_wide li_len fst snd]. auto.
Qed.
Lemma li_new_some t : bytes_len t < 2 ^ 32 -> exists i, li_new t = Some i.
Proof.
  intros H. unfold li_new. destruct (N.ltb_spec (bytes_len t) (2 ^ 32)); [|lia].
  destruct (analyze 0 0 0 t) as [ls ws]. eauto.
Qed.

Lemma start_offset_ok i pre suf : li_new (pre ++ suf) = Some i ->
  let p := end_of None pre in
  partition_point (li_newlines i) (bytes_len pre) = p_line p
  /\ start_offset i (p_line p) = Some (bytes_len pre - p_char p) /\ p_char p <= bytes_len pre.
Proof.
  intros H p. apply li_new_fields in H as (Hb & Hn & Hw & Hl).
  pose proof (line_index_lines pre 0 0 0 suf) as L. cbn zeta in L. change (advance None (Pos 0 0) pre) with p in L.
  rewrite <- Hn in L. destruct L as (_ & L2 & L3). rewrite N.add_0_l, N.sub_0_r in L2. split; [exact L2|].
  unfold start_offset. destruct (N.eqb_spec (p_line p) 0) as [E|E].
  - rewrite L3. split; [f_equal|]; lia.
  - destruct L3 as [L3 L4]. split; [|exact L4]. rewrite N.sub_0_r in L3. exact L3.
Qed.

Lemma get_position_ok enc pre suf ix : index_of enc (pre ++ suf) ix ->
  get_position ix (bytes_len pre) = LOk (end_of enc pre).
Proof.
  intros (i & Hi & ->). destruct (start_offset_ok i pre suf Hi) as (H1 & H2 & H3).
  destruct (li_new_fields _ _ Hi) as (Hb & Hn & Hw & Hl).
  assert (Hlt : bytes_len pre < 2 ^ 32) by (rewrite bytes_len_app in Hb; lia).
  unfold get_position. cbn [ix_index ix_encoding]. rewrite N.mod_small by exact Hlt.
  unfold line_col. rewrite Hl, H1. rewrite bytes_len_app. destruct (N.ltb_spec (bytes_len pre + bytes_len suf) (bytes_len pre)); [lia|].
  rewrite H2. cbn [lbind].
  replace (Pos (p_line (end_of None pre)) (bytes_len pre - (bytes_len pre - p_char (end_of None pre)))) with (end_of None pre)
    by (destruct (end_of None pre) as [l c]; cbn [p_line p_char] in *; f_equal; lia).
  destruct enc as [e|]; [|reflexivity].
  pose proof (wide_columns e pre 0 0 0 0 suf) as W. cbn zeta in W. specialize (W ltac:(lia) ltac:(lia)).
  change (advance None (Pos 0 0) pre) with (end_of None pre) in W. change (advance (Some e) (Pos 0 0) pre) with (end_of (Some e) pre) in W.
  destruct W as (W1 & _ & _). unfold to_wide, wide_of. rewrite Hw. fold (of_line (p_line (end_of None pre)) (snd (analyze 0 0 0 (pre ++ suf)))).
  assert (Eq : (if p_line (end_of None pre) =? 0 then p_char (end_of None pre) - (0 - 0) else p_char (end_of None pre)) = p_char (end_of None pre))
    by (destruct (_ =? 0); lia).
  rewrite Eq in W1. rewrite W1. cbn [option_map of_opt].
  assert (Hp : p_line (end_of (Some e) pre) = p_line (end_of None pre)) by (apply advance_lines).
  rewrite <- Hp. destruct (end_of (Some e) pre). reflexivity.
Qed.

Lemma get_offset_ok chk enc pre suf ix : index_of enc (pre ++ suf) ix ->
  get_offset chk ix (end_of enc pre) = LOk (bytes_len pre).
Proof.
  intros (i & Hi & ->). destruct (start_offset_ok i pre suf Hi) as (H1 & H2 & H3).
  destruct (li_new_fields _ _ Hi) as (Hb & Hn & Hw & Hl).
  assert (Hlt : bytes_len pre < 2 ^ 32) by (rewrite bytes_len_app in Hb; lia).
  unfold get_offset. cbn [ix_index ix_encoding].
  assert (Hoff : li_offset chk i (end_of None pre) = LOk (bytes_len pre)).
  { unfold li_offset. rewrite H2. replace (bytes_len pre - p_char (end_of None pre) + p_char (end_of None pre)) with (bytes_len pre) by lia.
    destruct (N.ltb_spec (bytes_len pre) (2 ^ 32)); [reflexivity|lia]. }
  destruct enc as [e|]; [|exact Hoff].
  pose proof (wide_columns e pre 0 0 0 0 suf) as W. cbn zeta in W. specialize (W ltac:(lia) ltac:(lia)).
  change (advance None (Pos 0 0) pre) with (end_of None pre) in W. change (advance (Some e) (Pos 0 0) pre) with (end_of (Some e) pre) in W.
  destruct W as (_ & W2 & _).
  assert (Eq : (if p_line (end_of None pre) =? 0 then p_char (end_of (Some e) pre) + (0 - 0) else p_char (end_of (Some e) pre)) = p_char (end_of (Some e) pre))
    by (destruct (_ =? 0); lia).
  rewrite Eq in W2.
  assert (Hp : p_line (end_of (Some e) pre) = p_line (end_of None pre)) by (apply advance_lines).
  unfold to_utf8, wide_of. rewrite Hw, Hp. fold (of_line (p_line (end_of None pre)) (snd (analyze 0 0 0 (pre ++ suf)))).
  rewrite W2. cbn [option_map of_opt lbind].
  replace (Pos (p_line (end_of None pre)) (p_char (end_of None pre))) with (end_of None pre) by (destruct (end_of None pre); reflexivity).
  exact Hoff.
Qed.

(** * Positions grow along a text *)

Lemma pos_le_trans a b c : pos_le a b -> pos_le b c -> pos_le a c.
Proof. unfold pos_le. lia. Qed.
Lemma advance_le enc t p : pos_le p (advance enc p t).
Proof.
  unfold pos_le. pose proof (advance_line_ge enc t p). pose proof (advance_char_ge enc t p). lia.
Qed.
Lemma advance_lt enc c t p : pos_lt p (advance enc p (c :: t)).
Proof.
  pose proof (advance_le enc (c :: t) p) as H. unfold pos_le, pos_lt in *. cbn [advance] in *. pose proof (units_pos enc c).
  destruct (c =? nl).
  - pose proof (advance_le enc t (Pos (p_line p + 1) 0)) as H'. unfold pos_le in H'. cbn [p_line p_char] in *. lia.
  - pose proof (advance_le enc t (Pos (p_line p) (p_char p + units enc c))) as H'. unfold pos_le in H'. cbn [p_line p_char] in *. lia.
Qed.
(** Of two prefixes of a text, the one with the smaller end is a prefix of the other. *)
Lemma prefix_of_le enc a x b y : a ++ x = b ++ y -> pos_le (end_of enc a) (end_of enc b) -> exists z, b = a ++ z.
Proof.
  intros E H. revert b E H.
  assert (G : forall a b p, a ++ x = b ++ y -> pos_le (advance enc p a) (advance enc p b) -> exists z, b = a ++ z).
  { clear a. intros a. induction a as [|c a IH]; intros b p E H; [exists b; reflexivity|].
    destruct b as [|d b].
    - exfalso. pose proof (advance_lt enc c a p) as H'. cbn [advance] in *. unfold pos_le, pos_lt in *. lia.
    - injection E as -> E. cbn [advance] in H. destruct (IH b _ E H) as [z ->]. exists z. reflexivity. }
  intros b E H. exact (G a b (Pos 0 0) E H).
Qed.

(** * The rope *)

Lemma chars_before_ok a b : chars_before (a ++ b) (bytes_len a) = length a.
Proof.
  induction a as [|c a IH]; cbn [app].
  - change (bytes_len []) with 0. destruct b as [|d b]; [reflexivity|]. cbn [chars_before length]. pose proof (len8_pos d).
    destruct (N.leb_spec (len8 d) 0); [lia|reflexivity].
  - rewrite bytes_len_cons. cbn [chars_before length]. destruct (N.leb_spec (len8 c) (len8 c + bytes_len a)); [|lia].
    replace (len8 c + bytes_len a - len8 c) with (bytes_len a) by lia. rewrite IH. reflexivity.
Qed.
Lemma byte_to_char_ok a b : byte_to_char (a ++ b) (bytes_len a) = LOk (length a).
Proof.
  unfold byte_to_char. rewrite bytes_len_app. destruct (N.ltb_spec (bytes_len a + bytes_len b) (bytes_len a)); [lia|].
  rewrite chars_before_ok. reflexivity.
Qed.
Lemma rope_remove_ok a m b : rope_remove (a ++ m ++ b) (length a) (length (a ++ m)) = LOk (a ++ b).
Proof.
  unfold rope_remove. rewrite !app_length. replace (length a <=? length a + length m)%nat with true by (symmetry; apply Nat.leb_le; lia).
  replace (length a + length m <=? length a + (length m + length b))%nat with true by (symmetry; apply Nat.leb_le; lia). cbn [andb].
  rewrite firstn_app, Nat.sub_diag, firstn_all. cbn [firstn]. rewrite app_nil_r.
  rewrite app_assoc. replace (length a + length m)%nat with (length (a ++ m)) by apply app_length.
  rewrite skipn_app, skipn_all, Nat.sub_diag. reflexivity.
Qed.
Lemma rope_insert_ok a b new : rope_insert (a ++ b) (length a) new = LOk (a ++ new ++ b).
Proof.
  unfold rope_insert. rewrite app_length. replace (length a <=? length a + length b)%nat with true by (symmetry; apply Nat.leb_le; lia).
  rewrite firstn_app, Nat.sub_diag, firstn_all. cbn [firstn]. rewrite app_nil_r.
  rewrite skipn_app, skipn_all, Nat.sub_diag. reflexivity.
Qed.

(** * One notification *)

(** The changes are applied with the index of the old text [t0]: this is right as long as each
    lies in the part [done ++ ..] of the text that is still as it was. *)
Lemma apply_bottom_up chk enc cs : forall t0 ix P X Y t',
  index_of enc t0 ix -> t0 = P ++ Y -> bottom_up cs ->
  (match cs with c :: _ => exists s e, ch_range c = Some (s, e) /\ (Y = X \/ pos_le e (end_of enc P)) | [] => True end) ->
  edits enc (P ++ X) cs t' -> apply_changes chk ix (P ++ X) cs = Some t'.
Proof.
  induction cs as [|c cs IH]; intros t0 ix P X Y t' Hix E0 Hbu Hhd Hed.
  - inversion Hed; subst. reflexivity.
  - inversion Hed as [|t c' t1 cs' t'' He Hes]; subst. clear Hed.
    destruct Hbu as [(s & e & Hr & Hnext) Hbu].
    inversion He as [pre mid suf new Et Ec E1|t new Et Ec E1]; [|subst c; discriminate Hr]. subst c t1. cbn [ch_range] in Hr.
    assert (s = end_of enc pre) as -> by congruence. assert (e = end_of enc (pre ++ mid)) as -> by congruence. clear Hr.
    (* the range lies within the common part *)
    assert (Hpre : exists rest, P ++ Y = pre ++ mid ++ rest).
    { destruct Hhd as (s & e & Hr & [->|Hle]); cbn [ch_range] in Hr.
      - exists suf. exact (eq_sym Et).
      - assert (e = end_of enc (pre ++ mid)) as -> by congruence.
        destruct (prefix_of_le enc (pre ++ mid) suf P X) as [z ->].
        + rewrite <- app_assoc. exact Et.
        + exact Hle.
        + exists (z ++ Y). rewrite <- !app_assoc. reflexivity. }
    destruct Hpre as [rest Hrest].
    cbn [apply_changes ch_range ch_text]. unfold convert_range.
    assert (Hix1 : index_of enc (pre ++ (mid ++ rest)) ix) by (rewrite <- Hrest; exact Hix).
    assert (Hix2 : index_of enc ((pre ++ mid) ++ rest) ix) by (rewrite <- app_assoc; exact Hix1).
    rewrite (get_offset_ok chk enc pre _ ix Hix1). cbn [lbind].
    rewrite (get_offset_ok chk enc (pre ++ mid) _ ix Hix2). cbn [lbind].
    rewrite bytes_len_app. destruct (N.leb_spec (bytes_len pre) (bytes_len pre + bytes_len mid)); [|lia].
     rewrite byte_to_char_ok. cbn [lbind]. rewrite <- bytes_len_app.
    rewrite (app_assoc pre mid suf), byte_to_char_ok, <- app_assoc. cbn [lbind].
    rewrite rope_remove_ok. cbn [lbind]. rewrite rope_insert_ok.
    apply (IH (P ++ Y) ix pre (new ++ suf) (mid ++ rest)); [exact Hix|exact Hrest|exact Hbu| |exact Hes].
    destruct cs as [|c2 cs]; [exact I|]. destruct Hnext as (s' & e' & Hr' & Hle').
    exists s', e'. split; [exact Hr'|]. right. exact Hle'.
Qed.

Lemma apply_changes_ok chk enc t ix cs t' :
  index_of enc t ix -> bottom_up cs -> edits enc t cs t' -> apply_changes chk ix t cs = Some t'.
Proof.
  intros Hix Hbu Hed. pose proof (apply_bottom_up chk enc cs t ix t [] [] t') as H. rewrite !app_nil_r in H. apply H; auto.
  destruct cs as [|c cs]; [exact I|]. destruct Hbu as [(s & e & Hr & _) _]. exists s, e. auto.
Qed.
