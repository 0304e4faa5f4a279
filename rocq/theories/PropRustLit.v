(** Property theorems C92: the literals in a generated Rust file denote the values and the texts of the schema. *)
From Verif Require Import Base Syntax Parser Compiler ParserSpec CompilerSpec CompilerClaims CompilerMore GenProofs ParserRound ParserRound2 RustFile RustLit.
From Verif Require PropRustFile PropRustNames PropParser Printer LowerProofs.
Require Coq.Strings.String.
Import Coq.Strings.String.StringSyntax.
Local Open Scope N_scope.

(** * Specification *)
(** The Rust type of a constant (book: type mapping), for the types that constants can have. *)
Definition constant_type (p : prim) : option (list rt) :=
  match p with
  | PrBool => Some (q "bool")
  | PrU8 => Some (q "u8") | PrU16 => Some (q "u16") | PrU32 => Some (q "u32") | PrU64 => Some (q "u64") | PrU128 => Some (q "u128")
  | PrI8 => Some (q "i8") | PrI16 => Some (q "i16") | PrI32 => Some (q "i32") | PrI64 => Some (q "i64") | PrI128 => Some (q "i128")
  | PrF32 => Some (q "f32") | PrF64 => Some (q "f64")
  | PrString | PrStringRef => Some (q "&str")
  | PrBytes | PrBytesRef => Some (q "&[u8]")
  | PrBoxString | PrBoxBytes => None
  end.
(** [x] is an item, or the first of a few items, of the file or of a module in it: what is in front of it ends an item. *)
Definition closes (t : rt) : Prop := t = P [59] \/ exists l, t = G Brc l.
Inductive item_in (x : list rt) : list rt -> Prop :=
| item_here a t b : closes t -> item_in x (a ++ t :: x ++ b)
| item_inside a l b : item_in x l -> item_in x (a ++ G Brc l :: b).
(** The lines of a comment, the way they are written in Rust. *)
Definition doc_of_comment (docs : list rt) (c : comment) : Prop := doc_lines docs (map (cons 32) c).
(** No more documentation among other attributes. *)
Definition no_docs (l : list rt) : Prop := forall s, ~ In (G Brk (W (tx "doc") :: P [61] :: s)) l.

(** [chars p]: [p] only speaks about characters (the argument of a predicate on [char]). *)
Definition chars (p : N -> bool) : Prop := forall c, p c = true -> scalar c.
(** Floats are printed as decimal numbers that are read as the same number. *)
Definition prints {F} (parse_f64 : str -> option F) (finite : F -> bool) (float_text : F -> str) : Prop :=
  forall f, finite f = true -> PropRustFile.decimal (float_text f) /\ parse_f64 (float_text f) = Some f.

(** * Digits *)
Lemma hex_digit_ok c : is_hex c = true -> hex c = Some (hex_digit c).
Proof.
  unfold is_hex, hex, hex_digit, is_digit. intros H.
  destruct ((48 <=? c) && (c <=? 57)) eqn:E; [reflexivity|]. cbn [orb] in H. destruct ((97 <=? c) && (c <=? 102)) eqn:E2.
  - replace ((65 <=? c) && (c <=? 70)) with false by lia. reflexivity.
  - cbn [orb] in H. rewrite H. reflexivity.
Qed.
Lemma hexes_fold l : forall n, forallb is_hex l = true -> hexes n l (fold_left (fun a c => a * 16 + hex_digit c) l n).
Proof.
  induction l as [|c l IH]; intros n H; cbn [fold_left]; [constructor|]. cbn [forallb] in H. apply andb_true_iff in H as [Hc H].
  econstructor; [apply hex_digit_ok; exact Hc|]. replace (16 * n) with (n * 16) by lia. apply IH. exact H.
Qed.
Lemma hex_str_hexes n : n < 16 ^ 6 -> hexes 0 (Printer.hex_str n) n /\ Printer.hex_str n <> [] /\ (length (Printer.hex_str n) <= 6)%nat.
Proof.
  intros H. destruct (hex_str_spec n H) as (H1 & H2 & H3 & H4). split; [|auto]. pose proof (hexes_fold _ 0 H1) as H5. unfold hex_value in H2. rewrite H2 in H5. exact H5.
Qed.
Lemma hex_upper_ok n : n < 16 -> hex (hex_upper n) = Some n.
Proof.
  intros H. unfold hex_upper, hex. destruct (n <? 10) eqn:E.
  - replace ((48 <=? 48 + n) && (48 + n <=? 57)) with true by lia. f_equal. lia.
  - replace ((48 <=? 55 + n) && (55 + n <=? 57)) with false by lia. replace ((65 <=? 55 + n) && (55 + n <=? 70)) with true by lia. f_equal. lia.
Qed.
Lemma decimals_fold l : forall n, Forall (fun c => 48 <= c <= 57) l -> decimals n l (fold_left (fun a c => a * 10 + (c - 48)) l n).
Proof.
  induction l as [|c l IH]; intros n H; cbn [fold_left]; [constructor|]. inversion H as [|? ? Hc Hl]; subst. constructor; [exact Hc|].
  replace (10 * n) with (n * 10) by lia. apply IH. exact Hl.
Qed.
Lemma dec_str_decimals n : decimals 0 (dec_str n) n /\ dec_str n <> [].
Proof.
  destruct (dec_str_spec n) as (c & r & E & Hd & Hv & _). rewrite E. split; [|discriminate]. pose proof (decimals_fold _ 0 Hd) as H. unfold dec_value in Hv. rewrite Hv in H. exact H.
Qed.

(** * Strings *)
Section Strings.
Variable up : N -> bool.
Hypothesis Hup : chars up.
Lemma nul_ok r t s : string_body t s -> string_body (nul r ++ t) (0 :: s).
Proof.
  intros H. unfold nul.
  assert (H1 : string_body (tx "\0" ++ t) (0 :: s)) by (change (tx "\0" ++ t) with (92 :: 48 :: t); apply sb_simple; [reflexivity|exact H]).
  assert (H2 : string_body (tx "\x00" ++ t) (0 :: s)).
  { change (tx "\x00" ++ t) with (92 :: 120 :: 48 :: 48 :: t). change (0 :: s) with (16 * 0 + 0 :: s). apply sb_ascii; [reflexivity|lia|reflexivity|exact H]. }
  destruct r as [|d r]; [exact H1|]. destruct ((48 <=? d) && (d <=? 55)); assumption.
Qed.
Lemma char_text c t s : c <> 0 -> string_body t s -> string_body (string_char up c ++ t) (c :: s).
Proof.
  intros H0 H. unfold string_char.
  destruct (N.eqb_spec c 9) as [->|]; [apply (sb_simple 116 9); [reflexivity|exact H]|].
  destruct (N.eqb_spec c 10) as [->|]; [apply (sb_simple 110 10); [reflexivity|exact H]|].
  destruct (N.eqb_spec c 13) as [->|]; [apply (sb_simple 114 13); [reflexivity|exact H]|].
  destruct (N.eqb_spec c 34) as [->|]; [apply (sb_simple 34 34); [reflexivity|exact H]|].
  destruct (N.eqb_spec c 92) as [->|]; [apply (sb_simple 92 92); [reflexivity|exact H]|]. cbn [orb].
  destruct (up c) eqn:E; [|apply sb_char; assumption]. apply Hup in E. rewrite <- !app_assoc. change (tx "\u{") with [92; 117; 123]. change (tx "}") with [125]. cbn [app].
  destruct (hex_str_hexes c) as (H1 & H2 & H3); [unfold scalar in E; cbn; lia|]. apply sb_unicode; assumption.
Qed.
Lemma string_text_ok s : exists t, string_text up s = 34 :: t ++ [34] /\ string_body t s.
Proof.
  exists (with_nul (string_char up) s). split; [reflexivity|]. induction s as [|c s IH]; cbn [with_nul]; [constructor|].
  destruct (N.eqb_spec c 0) as [->|Hc]; [apply nul_ok; exact IH|apply char_text; assumption].
Qed.
End Strings.
Lemma byte_nul_ok r t s : byte_body t s -> byte_body (nul r ++ t) (0 :: s).
Proof.
  intros H. unfold nul.
  assert (H1 : byte_body (tx "\0" ++ t) (0 :: s)) by (change (tx "\0" ++ t) with (92 :: 48 :: t); apply bb_simple; [reflexivity|exact H]).
  assert (H2 : byte_body (tx "\x00" ++ t) (0 :: s)).
  { change (tx "\x00" ++ t) with (92 :: 120 :: 48 :: 48 :: t). change (0 :: s) with (16 * 0 + 0 :: s). apply bb_byte; [reflexivity|reflexivity|exact H]. }
  destruct r as [|d r]; [exact H1|]. destruct ((48 <=? d) && (d <=? 55)); assumption.
Qed.
Lemma byte_text c t s : c < 256 -> c <> 0 -> byte_body t s -> byte_body (byte_char c ++ t) (c :: s).
Proof.
  intros Hc H0 H. unfold byte_char.
  destruct (N.eqb_spec c 9) as [->|]; [apply (bb_simple 116 9); [reflexivity|exact H]|].
  destruct (N.eqb_spec c 10) as [->|]; [apply (bb_simple 110 10); [reflexivity|exact H]|].
  destruct (N.eqb_spec c 13) as [->|]; [apply (bb_simple 114 13); [reflexivity|exact H]|].
  destruct (N.eqb_spec c 34) as [->|]; [apply (bb_simple 34 34); [reflexivity|exact H]|].
  destruct (N.eqb_spec c 92) as [->|]; [apply (bb_simple 92 92); [reflexivity|exact H]|]. cbn [orb].
  destruct ((32 <=? c) && (c <=? 126)) eqn:E; [apply bb_char; [lia|assumption..]|].
  pose proof (N.div_mod' c 16) as Hd. pose proof (N.mod_lt c 16 ltac:(lia)) as Hm. assert (Hq : c / 16 < 16) by (apply N.div_lt_upper_bound; lia).
  cbn [app]. rewrite Hd at 3. apply bb_byte; [apply hex_upper_ok; exact Hq|apply hex_upper_ok; exact Hm|exact H].
Qed.
Lemma bytes_text_ok b : Forall (fun x => x < 256) b -> exists t, bytes_text b = 98 :: 34 :: t ++ [34] /\ byte_body t b.
Proof.
  intros Hb. exists (with_nul byte_char b). split; [reflexivity|]. induction Hb as [|c b Hc Hb IH]; cbn [with_nul]; [constructor|].
  destruct (N.eqb_spec c 0) as [->|H0]; [apply byte_nul_ok; exact IH|apply byte_text; assumption].
Qed.

(** * Literals *)
Lemma read_decimal a b : PropRustFile.digits a -> PropRustFile.digits b -> read (a ++ 46 :: b) = Some [Q (a ++ 46 :: b)].
Proof. intros Ha Hb. unfold read. rewrite app_length. cbn [length]. rewrite Nat.add_succ_r, PropRustFile.lex_decimal by assumption. reflexivity. Qed.
Lemma read_minus a b : PropRustFile.digits a -> PropRustFile.digits b -> read (45 :: a ++ 46 :: b) = Some [P [45]; Q (a ++ 46 :: b)].
Proof.
  intros Ha Hb. unfold read. cbn [length]. pose proof (PropRustFile.lex_decimal (length a + length b) a b Ha Hb) as E. assert (El : length (a ++ 46 :: b) = S (length a + length b)) by (rewrite app_length; cbn [length]; lia). rewrite El.
  destruct Ha as [Ha1 Ha2]. destruct a as [|d a]; [contradiction|]. cbn [app] in *. inversion Ha2 as [|? ? Hd _]; subst. rewrite PropRustFile.lex_minus by exact Hd. rewrite E. exact eq_refl.
Qed.
Lemma literal_ok {F} (pf : str -> option F) finite ft up (v : lit F) : chars up -> prints pf finite ft -> LitOk v ->
  (match v with LFloat f => finite f = true | _ => True end) -> rust_value pf (literal_of ft up v) v.
Proof.
  intros Hup Hft Hv Hf. destruct v as [b|z|f|s|b]; cbn [literal_of].
  - destruct b; constructor.
  - destruct (z <? 0)%Z eqn:E.
    + replace (LInt z) with (LInt (F := F) (- Z.of_N (Z.to_N (- z)))) by (f_equal; lia). destruct (dec_str_decimals (Z.to_N (- z))). apply rv_negative; assumption.
    + replace (LInt z) with (LInt (F := F) (Z.of_N (Z.to_N z))) by (f_equal; lia). destruct (dec_str_decimals (Z.to_N z)). apply rv_int; assumption.
  - destruct (Hft f Hf) as [(sign & a & b & Hs & Ha & Hb & E) Hp]. rewrite E in *. destruct Hs as [-> | ->]; cbn [app] in *.
    + rewrite read_decimal by assumption. apply rv_float; assumption.
    + rewrite read_minus by assumption. apply rv_negative_float; assumption.
  - destruct (string_text_ok up Hup s) as (t & -> & Ht). apply rv_string. exact Ht.
  - destruct Hv as [_ Hv]. destruct (bytes_text_ok b Hv) as (t & -> & Ht). apply rv_bytes. exact Ht.
Qed.
Lemma doc_ok up c : chars up -> doc_of_comment (doc_of up c) c.
Proof.
  intros Hup. unfold doc_of_comment, doc_of. induction c as [|l c IH]; cbn [flat_map map]; [constructor|]. destruct (string_text_ok up Hup (32 :: l)) as (t & E & Ht).
  rewrite E. exact (dl_cons t (32 :: l) _ _ Ht IH).
Qed.

(** * Where the items stand *)
Lemma item_prefix x a l : item_in x l -> item_in x (a ++ l).
Proof.
  intros [a' t b Ht|a' l' b H].
  - rewrite app_assoc. apply item_here. exact Ht.
  - rewrite app_assoc. apply item_inside. exact H.
Qed.
Lemma item_suffix x b l : item_in x l -> item_in x (l ++ b).
Proof.
  intros [a t b' Ht|a l' b' H].
  - replace ((a ++ t :: x ++ b') ++ b) with (a ++ t :: x ++ (b' ++ b)) by (rewrite <- !app_assoc; cbn [app]; rewrite <- !app_assoc; reflexivity). apply item_here. exact Ht.
  - replace ((a ++ G Brc l' :: b') ++ b) with (a ++ G Brc l' :: (b' ++ b)) by (rewrite <- !app_assoc; reflexivity). apply item_inside. exact H.
Qed.
Lemma item_first t x b : closes t -> item_in x (t :: x ++ b).
Proof. intros H. exact (item_here x [] t b H). Qed.

Section Items.
Context {F : Type}.
Variables (bc : bool) (ft : F -> str) (up : N -> bool).
Notation deft := (def_tokens bc ft up).
Lemma ends_in l t : closes t -> exists a t', (l ++ [t] = a ++ [t'] /\ closes t').
Proof. intros H. exists l, t. auto. Qed.
Definition closed_end (l : list rt) : Prop := exists a t, l = a ++ [t] /\ closes t.
Lemma closed_app a l : closed_end l -> closed_end (a ++ l).
Proof. intros (b & t & -> & H). exists (a ++ b), t. rewrite app_assoc. auto. Qed.
Lemma closed_cons x l : closed_end l -> closed_end (x :: l).
Proof. apply (closed_app [x]). Qed.
Lemma closed_one t : closes t -> closed_end [t].
Proof. intros H. exists [], t. auto. Qed.
Lemma closes_semi : closes semi. Proof. left. reflexivity. Qed.
Lemma closes_brace l : closes (G Brc l). Proof. right. exists l. reflexivity. Qed.
Lemma impl_closed trait n g bd attr fn : closed_end (impl_of trait n g bd attr fn).
Proof. unfold impl_of. apply closed_app, closed_cons, closed_app, closed_app, closed_cons, closed_cons, closed_app, closed_app, closed_one, closes_brace. Qed.
Lemma def_closed (d : sdef F) : closed_end (deft d).
Proof.
  destruct d as [c n ds|c n g fs|c n g vs|c n g t|c n t v|segs e]; cbn [def_tokens].
  - apply closed_app, closed_cons, closed_cons, closed_cons, closed_one, closes_brace.
  - apply closed_app, closed_app, closed_app. apply impl_closed.
  - apply closed_app, closed_app, closed_app. apply impl_closed.
  - unfold alias_item. apply closed_app, closed_app, closed_cons, closed_cons, closed_cons, closed_app, closed_cons, closed_app, closed_one, closes_semi.
  - unfold const_item. apply closed_app, closed_app, closed_cons, closed_cons, closed_cons, closed_cons, closed_app, closed_cons, closed_app, closed_one, closes_semi.
  - unfold import_item. apply closed_app, closed_cons, closed_cons, closed_cons, closed_app, closed_app, closed_one, closes_semi.
Qed.
Lemma flat_items x ds d : In d ds -> (forall t, closes t -> item_in x (t :: deft d)) -> forall t, closes t -> item_in x (t :: flat_map deft ds).
Proof.
  intros Hd H. induction ds as [|y ds IH]; [destruct Hd|]. intros t Ht. cbn [flat_map]. destruct Hd as [->|Hd].
  - change (t :: deft d ++ flat_map deft ds) with ((t :: deft d) ++ flat_map deft ds). apply item_suffix, H. exact Ht.
  - destruct (def_closed y) as (a & t' & -> & Ht'). rewrite <- app_assoc. cbn [app]. apply (item_prefix x (t :: a)). apply IH; assumption.
Qed.
Lemma prelude_items x ds d : In d ds -> (forall t, closes t -> item_in x (t :: deft d)) -> item_in x (prelude ++ flat_map deft ds).
Proof.
  intros Hd H. assert (E : exists a, prelude = a ++ [semi]) by (exists (removelast prelude); vm_compute; reflexivity). destruct E as [a ->].
  rewrite <- app_assoc. apply item_prefix. cbn [app]. apply (flat_items x ds d Hd H). apply closes_semi.
Qed.
Lemma below_item chk (d : pdef F) : forall o x, simplify_definition chk d = Some o -> below x d ->
  exists xo, simplify_definition chk x = Some xo /\ forall t, closes t -> item_in (deft xo) (t :: deft o).
Proof.
  induction d as [c n ds IH|c a n g fs|c a n g vs|c n g t|c n t v|sg el] using pdef_ind2; intros o x H Hx;
    (destruct Hx as [->|(c' & n' & sub & Heq & Hw)];
     [exists o; split; [exact H|]; intros t0 Ht0; pose proof (item_first t0 (deft o) [] Ht0) as Hi; rewrite app_nil_r in Hi; exact Hi|]);
    [|discriminate Heq..].
  injection Heq as <- <- <-. cbn [simplify_definition] in H. destruct (all_opt _ ds) as [os|] eqn:E; [|discriminate]. cbn [option_map] in H. injection H as <-. apply all_opt_some in E.
  assert (K : exists d o xo, In d ds /\ In o os /\ simplify_definition chk x = Some xo /\ forall t, closes t -> item_in (deft xo) (t :: deft o)).
  { assert (Hex : exists d, In d ds /\ below x d).
    { inversion Hw as [? Hin|c2 n2 sub2 ? Hm Hw2]; subst; [exists x; split; [exact Hin|left; reflexivity]|]. eexists. split; [exact Hm|]. right. exists c2, n2, sub2. auto. }
    destruct Hex as (d & Hd & Hb). clear Hw. induction E as [|d0 o0 ds os Ho E IHE]; [destruct Hd|]. destruct Hd as [->|Hd].
    - destruct (IH d (or_introl eq_refl) o0 x Ho Hb) as (xo & H1 & H2). exists d, o0, xo. split; [left; reflexivity|]. split; [left; reflexivity|]. auto.
    - destruct IHE as (d1 & o1 & xo & H1 & H2 & H3); [intros y Hy; apply IH; right; exact Hy|exact Hd|]. exists d1, o1, xo. split; [right; exact H1|]. split; [right; exact H2|exact H3]. }
  destruct K as (d & o & xo & _ & Ho & Hx & Hi). exists xo. split; [exact Hx|]. intros t Ht. cbn [def_tokens].
  change (doc_of up c ++ w "pub" :: w "mod" :: W n :: [G Brc (prelude ++ flat_map deft os)]) with (doc_of up c ++ [w "pub"; w "mod"; W n] ++ G Brc (prelude ++ flat_map deft os) :: []).
  rewrite (app_assoc (doc_of up c)). apply (item_inside (deft xo) (t :: doc_of up c ++ [w "pub"; w "mod"; W n])). exact (prelude_items _ os o Ho Hi).
Qed.
Lemma schema_item chk (s : pschema F) o x : simplify_schema chk s = Some o -> within x (ps_defs s) ->
  exists xo, simplify_definition chk x = Some xo /\ item_in (deft xo) (schema_tokens bc ft up (snd o)).
Proof.
  intros H Hw. unfold simplify_schema in H. destruct (all_opt _ _) as [os|] eqn:E; [|discriminate]. cbn [option_map] in H. injection H as <-. cbn [snd].
  assert (Hm : simplify_definition chk (PModule [] [] (ps_defs s)) = Some (SModule [] [] os)) by (cbn [simplify_definition]; rewrite E; reflexivity).
  apply all_opt_some in E. unfold schema_tokens.
  assert (Hex : exists d, In d (ps_defs s) /\ below x d).
  { inversion Hw as [? Hin|c2 n2 sub2 ? Hm' Hw2]; subst; [exists x; split; [exact Hin|left; reflexivity]|]. eexists. split; [exact Hm'|]. right. exists c2, n2, sub2. auto. }
  destruct Hex as (d & Hd & Hb).
  assert (K : exists o, In o os /\ simplify_definition chk d = Some o).
  { clear -E Hd. induction E as [|d0 o0 ds os Ho E IH]; [destruct Hd|]. destruct Hd as [->|Hd]; [exists o0; split; [left; reflexivity|exact Ho]|]. destruct (IH Hd) as (o & H1 & H2). exists o. split; [right; exact H1|exact H2]. }
  destruct K as (o & Ho & Hs). destruct (below_item chk d o x Hs Hb) as (xo & Hx & Hi). exists xo. split; [exact Hx|]. exact (prelude_items _ os o Ho Hi).
Qed.
End Items.

(** * Literals denote one value *)
Lemma hexes_fun n l m m' : hexes n l m -> hexes n l m' -> m = m'.
Proof. intros H. revert m'. induction H as [n|n c d t m Hc H IH]; intros m' H'; inversion H'; subst; [reflexivity|]. apply IH. congruence. Qed.
Lemma hexes_hex n l m : hexes n l m -> Forall (fun c => hex c <> None) l.
Proof. induction 1 as [|? ? ? ? ? Hc]; constructor; [congruence|assumption]. Qed.
Lemma hex_split l : forall l' t t', Forall (fun c => hex c <> None) l -> Forall (fun c => hex c <> None) l' -> l ++ 125 :: t = l' ++ 125 :: t' -> l = l' /\ t = t'.
Proof.
  induction l as [|c l IH]; intros l' t t' H H' E; destruct l' as [|c' l']; cbn [app] in E.
  - injection E as ->. auto.
  - injection E as <- _. inversion H' as [|? ? Hc]; subst. destruct (Hc eq_refl).
  - injection E as -> _. inversion H as [|? ? Hc]; subst. destruct (Hc eq_refl).
  - injection E as -> E. inversion H; inversion H'; subst. destruct (IH l' t t') as [-> ->]; auto.
Qed.
Lemma blank_split l : forall l' t t', Forall blank l -> Forall blank l' -> not_blank t -> not_blank t' -> l ++ t = l' ++ t' -> t = t'.
Proof.
  induction l as [|c l IH]; intros l' t t' H H' Ht Ht' E; destruct l' as [|c' l']; cbn [app] in E.
  - exact E.
  - subst t. inversion H'; subst. destruct (Ht H2).
  - subst t'. inversion H; subst. destruct (Ht' H2).
  - injection E as -> E. inversion H; inversion H'; subst. exact (IH l' t t' H3 H7 Ht Ht' E).
Qed.
Lemma string_fun t s s' : string_body t s -> string_body t s' -> s = s'.
Proof.
  intros H. revert s'. induction H as [|c t s H1 H2 H3 H IH|c v t s Hc H IH|a b x y t s Ha Hx Hb H IH|l v t s Hl Hn Hlen Hv H IH|l t s Hl Hn H IH]; intros s' H'.
  - inversion H'; reflexivity.
  - inversion H'; subst; try contradiction. f_equal. apply IH. assumption.
  - inversion H' as [|? ? ? ? H2|? v' ? ? Hc'|? ? ? ? ? ? Ha|? ? ? ? ? ? ? ? ? E|? ? ? Hl Hn]; subst; try contradiction.
    + f_equal; [congruence|apply IH; assumption].
    + discriminate Hc.
    + discriminate Hc.
    + discriminate Hc.
  - inversion H' as [|? ? ? ? H2|? v' ? ? Hc'|? ? x' y' ? ? Ha' Hx' Hb'|? ? ? ? ? ? ? ? ? E|? ? ? Hl Hn]; subst; try contradiction.
    + discriminate Hc'.
    + f_equal; [congruence|apply IH; assumption].
  - inversion H' as [|? ? ? ? H2|? v' ? ? Hc'|? ? x' y' ? ? Ha' Hx' Hb'|l' v' t' s0 Hl' Hn' Hlen' Hv' Hb' E|? ? ? Hl' Hn']; subst; try contradiction.
    + discriminate Hc'.
    + destruct (hex_split l' l t' t (hexes_hex _ _ _ Hl') (hexes_hex _ _ _ Hl) E) as [-> ->]. f_equal; [eapply hexes_fun; eassumption|apply IH; assumption].
  - inversion H' as [|? ? ? ? H2|? v' ? ? Hc'|? ? x' y' ? ? Ha' Hx' Hb'|l' v' t' s0 Hl' Hn' Hlen' Hv' Hb' E|l' t' s0 Hl' Hn' Hb' E]; subst; try contradiction.
    + discriminate Hc'.
    + assert (t' = t) by (eapply (blank_split l' l); eassumption). subst t'. apply IH. assumption.
Qed.
Lemma byte_fun t s s' : byte_body t s -> byte_body t s' -> s = s'.
Proof.
  intros H. revert s'. induction H as [|c t s H0 H1 H2 H3 H IH|c v t s Hc H IH|a b x y t s Ha Hb H IH|l t s Hl Hn H IH]; intros s' H'.
  - inversion H'; reflexivity.
  - inversion H'; subst; try contradiction. f_equal. apply IH. assumption.
  - inversion H' as [|? ? ? ? ? H2|? v' ? ? Hc'|? ? ? ? ? ? Ha|? ? ? Hl Hn]; subst; try contradiction.
    + f_equal; [congruence|apply IH; assumption].
    + discriminate Hc.
    + discriminate Hc.
  - inversion H' as [|? ? ? ? ? H2|? v' ? ? Hc'|? ? x' y' ? ? Ha' Hb'|? ? ? Hl Hn]; subst; try contradiction.
    + discriminate Hc'.
    + f_equal; [congruence|apply IH; assumption].
  - inversion H' as [|? ? ? ? ? H2|? v' ? ? Hc'|? ? x' y' ? ? Ha' Hb'|l' t' s0 Hl' Hn' Hb' E]; subst; try contradiction.
    + discriminate Hc'.
    + assert (t' = t) by (eapply (blank_split l' l); eassumption). subst t'. apply IH. assumption.
Qed.
Lemma decimals_fun n l m m' : decimals n l m -> decimals n l m' -> m = m'.
Proof. intros H. revert m'. induction H as [n|n c t m Hc H IH]; intros m' H'; inversion H'; subst; [reflexivity|]. apply IH. assumption. Qed.
Lemma decimals_digits n l m : decimals n l m -> Forall (fun c => 48 <= c <= 57) l.
Proof. induction 1; constructor; assumption. Qed.
Lemma digits_no_point l a b : Forall (fun c => 48 <= c <= 57) l -> l <> a ++ 46 :: b.
Proof. intros H ->. apply Forall_app in H as [_ H]. inversion H. lia. Qed.
Lemma quoted t t' : t ++ [34] = t' ++ [34] -> t = t'.
Proof. apply app_inv_tail. Qed.
Lemma value_fun {F} (pf : str -> option F) ts v v' : rust_value pf ts v -> rust_value pf ts v' -> v = v'.
Proof.
  intros H H'. destruct H as [| |l n Hl Hn|l n Hl Hn|a b f Ha Hb Hp|a b f Ha Hb Hp|t s Ht|t s Ht].
  - inversion H'; reflexivity.
  - inversion H'; reflexivity.
  - pose proof (decimals_digits _ _ _ Hn) as Hd. inversion H' as [| |? n' ? Hn'| |a' b' f' Ha' Hb' Hp' E| |t' s' Ht' E|t' s' Ht' E]; subst.
    + rewrite (decimals_fun _ _ _ _ Hn Hn'). reflexivity.
    + destruct (digits_no_point _ _ _ Hd eq_refl).
    + inversion Hd; lia.
    + inversion Hd; lia.
  - pose proof (decimals_digits _ _ _ Hn) as Hd. inversion H' as [| | |? n' ? Hn'| |a' b' f' Ha' Hb' Hp' E| |]; subst.
    + rewrite (decimals_fun _ _ _ _ Hn Hn'). reflexivity.
    + destruct (digits_no_point _ _ _ Hd eq_refl).
  - inversion H' as [| |l n' Hl Hn' E| |a' b' f' Ha' Hb' Hp' E| |t' s' Ht' E|t' s' Ht' E].
    + subst. destruct (digits_no_point _ _ _ (decimals_digits _ _ _ Hn') eq_refl).
    + rewrite E in *. f_equal. congruence.
    + destruct Ha as [Ha1 Ha]. destruct a as [|d a]; [contradiction|]. injection E as E1 _. inversion Ha. lia.
    + destruct Ha as [Ha1 Ha]. destruct a as [|d a]; [contradiction|]. injection E as E1 _. inversion Ha. lia.
  - inversion H' as [| | |l n' Hl Hn' E| |a' b' f' Ha' Hb' Hp' E| |].
    + subst. destruct (digits_no_point _ _ _ (decimals_digits _ _ _ Hn') eq_refl).
    + rewrite E in *. f_equal. congruence.
  - inversion H' as [| |l n' Hl Hn' E| |a' b' f' Ha' Hb' Hp' E| |t' s' Ht' E|].
    + pose proof (decimals_digits _ _ _ Hn') as Hd. inversion Hd. lia.
    + destruct Ha' as [Ha1 Ha]. destruct a' as [|d a']; [contradiction|]. injection E as E1 _. inversion Ha. lia.
    + apply quoted in E. subst t'. rewrite (string_fun _ _ _ Ht Ht'). reflexivity.
  - inversion H' as [| |l n' Hl Hn' E| |a' b' f' Ha' Hb' Hp' E| | |t' s' Ht' E].
    + pose proof (decimals_digits _ _ _ Hn') as Hd. inversion Hd. lia.
    + destruct Ha' as [Ha1 Ha]. destruct a' as [|d a']; [contradiction|]. injection E as E1 _. inversion Ha. lia.
    + apply quoted in E. subst t'. rewrite (byte_fun _ _ _ Ht Ht'). reflexivity.
Qed.

(** * C92 *)
Lemma within_ok {F} (d : pdef F) : forall ds, within d ds -> Forall DefOk ds -> DefOk d.
Proof.
  intros ds H. induction H as [ds Hin|c n sub ds Hin H IH]; intros Ho; rewrite Forall_forall in Ho; [apply Ho; exact Hin|].
  apply IH. specialize (Ho _ Hin). cbn [DefOk] in Ho. destruct Ho as (_ & _ & Ho). clear -Ho. induction sub as [|x sub IHs]; [constructor|]. destruct Ho as [H1 H2]. constructor; [exact H1|exact (IHs H2)].
Qed.
Lemma constant_type_ok bc p : p <> PrBoxString -> p <> PrBoxBytes -> constant_type p = Some (const_ty bc (SPrim p)).
Proof. intros H1 H2. destruct p; try contradiction; reflexivity. Qed.

(** Every constant of a schema is declared in the Rust file, behind its documentation, with its type and with a literal of its value. *)
Theorem C92_constants : forall (F : Type) (parse_f64 : str -> option F) chk bytes_crate finite float_text unprintable i (s : pschema F) o c n t v,
  text i -> schema_parse parse_f64 i = Some s -> simplify_schema chk s = Some o -> PropRustNames.expressible finite (ps_defs s) ->
  chars unprintable -> prints parse_f64 finite float_text -> within (PConst c n t v) (ps_defs s) ->
  exists p ty docs lit, t = PPrim p /\ constant_type p = Some ty
    /\ item_in (docs ++ q "#[allow(dead_code)] pub const" ++ [W n] ++ q ":" ++ ty ++ q "=" ++ lit ++ q ";") (schema_tokens bytes_crate float_text unprintable (snd o))
    /\ doc_of_comment docs c /\ rust_value parse_f64 lit v.
Proof.
  intros F pf chk bc fin ft up i s o c n t v Hi Hp Ho He Hup Hft Hw.
  destruct (He _ Hw) as [Hg Hf]. cbn [generator_ok const_content] in Hg. destruct t as [p| | | | | | | |]; try destruct Hg. cbn [const_content] in *.
  exists p, (const_ty bc (SPrim p)), (doc_of up c), (literal_of ft up v). split; [reflexivity|]. split; [apply constant_type_ok; assumption|].
  destruct (schema_item bc ft up chk s o _ Ho Hw) as (xo & Hx & Hit). cbn [simplify_definition simplify_type] in Hx. injection Hx as <-. split; [exact Hit|]. split; [apply doc_ok; exact Hup|].
  apply (literal_ok pf fin); [exact Hup|exact Hft| |exact Hf].
  pose proof (PropParser.C52_well_formed F pf i s Hi Hp) as [_ Hok]. pose proof (within_ok _ _ Hw Hok) as Hd. cbn [DefOk] in Hd. apply Hd.
Qed.
Print Assumptions C92_constants.

(** The comment of a definition, the word that introduces it in Rust, and its name; imports have none. *)
Definition documentation {F} (d : pdef F) : option (comment * list rt * str) :=
  match d with
  | PModule c n _ => Some (c, q "mod", n)
  | PStruct c _ n _ _ => Some (c, q "struct", n)
  | PEnum c _ n _ _ => Some (c, q "enum", n)
  | PAlias c n _ _ => Some (c, q "type", n)
  | PConst c n _ _ => Some (c, q "const", n)
  | PImport _ _ => None
  end.
(** Entries with a comma behind each, the fields of a struct or the variants of an enum: documentation, name, and what follows. *)
Inductive members {A} (doc : A -> comment) (name : A -> list rt) (tail : A -> list rt -> Prop) : list rt -> list A -> Prop :=
| members_nil : members doc name tail [] []
| members_cons x docs e ts l : doc_of_comment docs (doc x) -> tail x e -> members doc name tail ts l ->
    members doc name tail (docs ++ name x ++ e ++ P [44] :: ts) (x :: l).
Definition fields_with (vis : list rt) : list rt -> list nfield -> Prop :=
  members nf_comment (fun f => vis ++ [W (nf_name f)]) (fun _ e => exists ty, e = q ":" ++ ty /\ no_docs ty).
Definition variants_with : list rt -> list pvariant -> Prop :=
  members pv_comment (fun v => [W (pv_name v)]) (fun v e =>
    match pv_fields v with
    | FNamed fs => exists b, e = [G Brc b] /\ fields_with [] b (p_values fs)
    | FUnnamed _ => exists b, e = [G Par b]
    | FUnit => e = []
    end).

(** Every definition is documented by its comment, and nothing else. *)
Theorem C92_docs : forall (F : Type) chk bytes_crate (float_text : F -> str) unprintable (s : pschema F) o d c k n,
  simplify_schema chk s = Some o -> chars unprintable -> within d (ps_defs s) -> documentation d = Some (c, k, n) ->
  exists docs attrs rest, item_in (docs ++ attrs ++ q "pub" ++ k ++ [W n] ++ rest) (schema_tokens bytes_crate float_text unprintable (snd o))
    /\ doc_of_comment docs c /\ no_docs attrs.
Proof.
  intros F chk bc ft up s o d c k n Ho Hup Hw Hd. destruct (schema_item bc ft up chk s o _ Ho Hw) as (xo & Hx & Hit).
  assert (Hempty : no_docs []) by (intros l []).
  assert (Hd1 : no_docs (attr_derive ++ attr_item)).
  { intros l. vm_compute. intros H. repeat (destruct H as [H|H]; [discriminate H|]). exact H. }
  assert (Hd2 : no_docs attr_item).
  { intros l. vm_compute. intros H. repeat (destruct H as [H|H]; [discriminate H|]). exact H. }
  assert (Hd3 : no_docs attr_const).
  { intros l. vm_compute. intros H. repeat (destruct H as [H|H]; [discriminate H|]). exact H. }
  destruct d as [c0 n0 ds|c0 a n0 g fs|c0 a n0 g vs|c0 n0 g t|c0 n0 t v|sg el]; cbn [documentation] in Hd; try discriminate Hd; injection Hd as <- <- <-; cbn [simplify_definition] in Hx.
  - destruct (all_opt _ ds) as [os|]; [|discriminate]. injection Hx as <-. cbn [def_tokens] in Hit.
    exists (doc_of up c0), [], [G Brc (prelude ++ flat_map (def_tokens bc ft up) os)]. split; [exact Hit|]. split; [apply doc_ok; exact Hup|exact Hempty].
  - destruct (simplify_fields chk fs) as [fs'|]; [|discriminate]. injection Hx as <-. cbn [def_tokens] in Hit. unfold struct_item in Hit. rewrite <- !app_assoc in Hit. cbn [app] in Hit.
    exists (doc_of up c0), (attr_derive ++ attr_item). eexists. split; [rewrite <- !app_assoc; exact Hit|]. split; [apply doc_ok; exact Hup|exact Hd1].
  - destruct (simplify_variants chk 1 (p_values vs)) as [vs'|]; [|discriminate]. injection Hx as <-. cbn [def_tokens] in Hit. unfold enum_item in Hit. rewrite <- !app_assoc in Hit. cbn [app] in Hit.
    exists (doc_of up c0), (attr_derive ++ attr_item). eexists. split; [rewrite <- !app_assoc; exact Hit|]. split; [apply doc_ok; exact Hup|exact Hd1].
  - injection Hx as <-. cbn [def_tokens] in Hit. exists (doc_of up c0), attr_item. eexists. split; [exact Hit|]. split; [apply doc_ok; exact Hup|exact Hd2].
  - injection Hx as <-. cbn [def_tokens] in Hit. exists (doc_of up c0), attr_const. eexists. split; [exact Hit|]. split; [apply doc_ok; exact Hup|exact Hd3].
Qed.
Print Assumptions C92_docs.

Lemma array_docs bc t l s : data_ty bc t ++ semi :: l <> W (tx "doc") :: P [61] :: s.
Proof.
  destruct t as [p|t|k v|t|t|t|ts|t n|path name gs]; try (destruct bc; discriminate).
  - destruct p; destruct bc; discriminate.
  - destruct t as [p|t|k v|t|t|t|ts|t n|path name gs]; try discriminate. destruct p; destruct bc; discriminate.
  - cbn [data_ty]. destruct path as [|x path]; [|cbn; discriminate]. cbn [path_to flat_map app]. destruct gs; discriminate.
Qed.
Lemma leaf_docs l : (forall d s, ~ In (G d s) l) -> no_docs l.
Proof. intros H s. apply H. Qed.
Lemma no_docs_app a b : no_docs a -> no_docs b -> no_docs (a ++ b).
Proof. intros Ha Hb s H. apply in_app_iff in H as [H|H]; [exact (Ha s H)|exact (Hb s H)]. Qed.
Lemma no_docs_leaf x l : (forall s, x <> G Brk (W (tx "doc") :: P [61] :: s)) -> no_docs l -> no_docs (x :: l).
Proof. intros Hx Hl s [H|H]; [exact (Hx s H)|exact (Hl s H)]. Qed.
Lemma no_docs_nil : no_docs [].
Proof. intros s []. Qed.
Ltac leaves := repeat (apply no_docs_nil || (apply no_docs_leaf; [intros ?; discriminate|]) || apply no_docs_app).
Lemma docs_angle l : no_docs l -> no_docs (angle l).
Proof. intros H. unfold angle. leaves. exact H. Qed.
Lemma docs_terminated s l : (forall s', s <> G Brk (W (tx "doc") :: P [61] :: s')) -> Forall no_docs l -> no_docs (terminated s l).
Proof. intros Hs H. unfold terminated. induction H as [|x l Hx H IH]; cbn [flat_map]; leaves; try assumption. apply no_docs_leaf; [exact Hs|]. apply no_docs_nil. Qed.
Lemma type_docs bc t : no_docs (data_ty bc t).
Proof.
  induction t as [p|t IH|k v IHk IHv|t IH|t IH|t IH|ts IH|t n IH|path name gs IH] using LowerProofs.sty_ind2; cbn [data_ty].
  - destruct p; destruct bc; vm_compute; intros s H; repeat (destruct H as [H|H]; [discriminate H|]); exact H.
  - leaves; exact IH.
  - unfold hash_map_ty. leaves; assumption.
  - unfold hash_set_ty. leaves; exact IH.
  - leaves; exact IH.
  - destruct t as [p|t|k v|t|t|t|ts|t n|path name gs]; try exact no_docs_nil.
    + destruct p; destruct bc; vm_compute; intros s H; repeat (destruct H as [H|H]; [discriminate H|]); exact H.
    + cbn [data_ty] in IH. apply no_docs_app; [unfold mabo_; leaves|]. apply no_docs_leaf; [intros ?; discriminate|]. intros s H. exact (IH s (or_intror H)).
    + cbn [data_ty] in IH. apply no_docs_app; [unfold mabo_; leaves|]. apply no_docs_leaf; [intros ?; discriminate|]. intros s H. apply (IH s). apply in_app_iff. right. exact H.
    + cbn [data_ty] in IH. apply no_docs_app; [unfold mabo_; leaves|]. apply no_docs_leaf; [intros ?; discriminate|]. intros s H. apply (IH s). apply in_app_iff. right. exact H.
  - leaves.
  - apply no_docs_leaf; [|apply no_docs_nil]. intros s H. injection H as H. exact (array_docs bc t _ s H).
  - apply no_docs_app.
    + unfold path_to. induction path as [|x path IHp]; cbn [flat_map app]; leaves. exact IHp.
    + leaves. destruct gs as [|g gs]; [apply no_docs_nil|]. apply docs_angle. apply docs_terminated; [discriminate|]. apply Forall_forall. intros x Hx. apply in_map_iff in Hx as (t & <- & Ht). apply IH. exact Ht.
Qed.
Lemma named_members bc up vis (fs : punct nfield) ids : chars up -> length ids = length (p_values fs) ->
  fields_with vis (terminated comma (map (fun f => doc_of up (sf_comment f) ++ vis ++ W (sf_name f) :: colon :: data_ty bc (sf_ty f))
     (map (fun '(f, i) => SField (nf_comment f) (nf_name f) (simplify_type (nf_ty f)) i) (combine (p_values fs) ids)))) (p_values fs).
Proof.
  intros Hup. generalize (p_values fs). intros l. revert ids. induction l as [|f l IH]; intros ids Hl; destruct ids as [|i ids]; try discriminate Hl; [constructor|].
  cbn [combine map terminated flat_map sf_comment sf_name sf_ty]. injection Hl as Hl. specialize (IH ids Hl).
  unfold terminated in IH. set (T := flat_map (fun x : list rt => x ++ [comma]) _) in *.
  replace (((doc_of up (nf_comment f) ++ vis ++ W (nf_name f) :: colon :: data_ty bc (simplify_type (nf_ty f))) ++ [comma]) ++ T)
    with (doc_of up (nf_comment f) ++ (vis ++ [W (nf_name f)]) ++ (q ":" ++ data_ty bc (simplify_type (nf_ty f))) ++ P [44] :: T)
    by (change (q ":") with [colon]; rewrite <- ?app_assoc; cbn [app]; rewrite <- ?app_assoc; reflexivity).
  apply (members_cons nf_comment (fun f => vis ++ [W (nf_name f)]) _ f (doc_of up (nf_comment f)) (q ":" ++ data_ty bc (simplify_type (nf_ty f)))); [apply doc_ok; exact Hup| |exact IH].
  eexists. split; [reflexivity|apply type_docs].
Qed.

(** So are the fields of structs, the variants of enums, and their fields. *)
Theorem C92_members : forall (F : Type) chk bytes_crate (float_text : F -> str) unprintable (s : pschema F) o,
  simplify_schema chk s = Some o -> chars unprintable ->
  (forall c a n g fs, within (PStruct c a n g (FNamed fs)) (ps_defs s) -> exists docs attrs params body rest,
     item_in (docs ++ attrs ++ q "pub struct" ++ [W n] ++ params ++ [G Brc body] ++ rest) (schema_tokens bytes_crate float_text unprintable (snd o))
     /\ (forall d l, ~ In (G d l) params) /\ fields_with (q "pub") body (p_values fs))
  /\ (forall c a n g vs, within (PEnum c a n g vs) (ps_defs s) -> exists docs attrs params body rest,
     item_in (docs ++ attrs ++ q "pub enum" ++ [W n] ++ params ++ [G Brc body] ++ rest) (schema_tokens bytes_crate float_text unprintable (snd o))
     /\ (forall d l, ~ In (G d l) params) /\ variants_with body (p_values vs)).
Proof.
  intros F chk bc ft up s o Ho Hup.
  assert (Hparams : forall g d l, ~ In (G d l) (params_of g)).
  { intros g d l. unfold params_of. destruct g as [|x g]; [intros []|]. unfold angle. intros [H|H]; [discriminate H|]. apply in_app_iff in H as [H|[H|[]]]; [|discriminate H].
    unfold terminated in H. apply in_flat_map in H as (y & Hy & H). apply in_map_iff in Hy as (z & <- & _). cbn in H. destruct H as [H|[H|[]]]; discriminate H. }
  split; intros c a n g fs Hw; destruct (schema_item bc ft up chk s o _ Ho Hw) as (xo & Hx & Hit); cbn [simplify_definition] in Hx.
  - cbn [simplify_fields] in Hx. destruct (draw chk 1 (map nf_id (p_values fs))) as [ids|] eqn:Ei; [|discriminate]. cbn [option_map] in Hx. injection Hx as <-. cbn [def_tokens] in Hit. unfold struct_item, fields_of in Hit. cbn [ss_kind ss_fields] in Hit.
    exists (doc_of up c), (attr_derive ++ attr_item), (params_of (simplify_generics g)). eexists. eexists. split; [|split; [apply Hparams|]].
    + rewrite <- ?app_assoc in Hit. cbn [app] in Hit. rewrite <- ?app_assoc in Hit. cbn [app] in Hit. rewrite <- ?app_assoc. exact Hit.
    + apply (named_members bc up (q "pub") fs ids Hup). rewrite <- (map_length nf_id). symmetry. clear -Ei. revert Ei. generalize (map nf_id (p_values fs)) as l. intros l. generalize 1. revert ids. induction l as [|x l IH]; intros ids st H; cbn [draw] in H; [injection H as <-; reflexivity|].
      destruct (gen_next chk st x) as [[i st']|]; [|discriminate]. destruct (draw chk st' l) as [m|] eqn:E; [|discriminate]. injection H as <-. cbn [length]. rewrite (IH _ _ E). reflexivity.
  - destruct (simplify_variants chk 1 (p_values fs)) as [vs'|] eqn:Ev; [|discriminate]. cbn [option_map] in Hx. injection Hx as <-. cbn [def_tokens] in Hit. unfold enum_item in Hit.
    exists (doc_of up c), (attr_derive ++ attr_item), (params_of (simplify_generics g)). eexists. eexists. split; [|split; [apply Hparams|]].
    + rewrite <- ?app_assoc in Hit. cbn [app] in Hit. rewrite <- ?app_assoc in Hit. cbn [app] in Hit. rewrite <- ?app_assoc. exact Hit.
    + clear -Ev Hup. revert Ev. generalize (p_values fs) as l. intros l. generalize 1. revert vs'. induction l as [|v l IH]; intros vs' st H; cbn [simplify_variants] in H; [injection H as <-; constructor|].
      destruct (simplify_fields chk (pv_fields v)) as [fs'|] eqn:Ef; [|discriminate]. destruct (gen_next chk st (pv_id v)) as [[i st']|]; [|discriminate].
      destruct (simplify_variants chk st' l) as [vs0|] eqn:E; [|discriminate]. cbn [option_map] in H. injection H as <-. specialize (IH _ _ E).
      cbn [map terminated flat_map]. unfold variant_item at 1. cbn [sv_comment sv_name sv_fields]. rewrite <- !app_assoc. cbn [app].
      replace (W (pv_name v) :: (fields_of bc up false fs' ++ [comma]) ++ flat_map (fun x => x ++ [comma]) (map (variant_item bc up) vs0))
        with ([W (pv_name v)] ++ fields_of bc up false fs' ++ P [44] :: terminated comma (map (variant_item bc up) vs0)) by (cbn [app]; rewrite <- !app_assoc; reflexivity).
      apply (members_cons pv_comment (fun v => [W (pv_name v)])); [apply doc_ok; exact Hup| |exact IH].
      destruct (pv_fields v) as [nf|uf|]; cbn [simplify_fields] in Ef.
      * destruct (draw chk 1 (map nf_id (p_values nf))) as [ids|] eqn:Ei; [|discriminate]. cbn [option_map] in Ef. injection Ef as <-. eexists. split; [reflexivity|]. unfold fields_of. cbn [ss_kind ss_fields]. apply (named_members bc up [] nf ids Hup).
        rewrite <- (map_length nf_id). symmetry. clear -Ei. revert Ei. generalize (map nf_id (p_values nf)) as l. intros l. generalize 1. revert ids. induction l as [|x l IH]; intros ids st H; cbn [draw] in H; [injection H as <-; reflexivity|].
        destruct (gen_next chk st x) as [[i st']|]; [|discriminate]. destruct (draw chk st' l) as [m|] eqn:E; [|discriminate]. injection H as <-. cbn [length]. rewrite (IH _ _ E). reflexivity.
      * destruct (draw chk 1 _) as [ids|]; [|discriminate]. cbn [option_map] in Ef. injection Ef as <-. eexists. reflexivity.
      * injection Ef as <-. reflexivity.
Qed.
Print Assumptions C92_members.

(** A literal denotes at most one value, and a line of documentation one text. *)
Theorem C92_unambiguous : forall (F : Type) (parse_f64 : str -> option F),
  (forall ts v v', rust_value parse_f64 ts v -> rust_value parse_f64 ts v' -> v = v') /\ (forall t s s', string_body t s -> string_body t s' -> s = s').
Proof. intros F pf. split; [exact (value_fun pf)|exact string_fun]. Qed.
Print Assumptions C92_unambiguous.

(** A module with constants of every kind of literal: a quote, an escape character, a NUL in front of a digit, a negative number, a float, bytes. *)
Definition ex_text : str := tx "mod m {
/// The first.
const A: string = ""q\""\u{1b}\u{0}1"";
const B: i8 = -5;
const C: f64 = -1.5;
const D: bytes = [0, 49, 200];
}".
Definition ex_unprintable (c : N) : bool := c <? 32.
Definition ex_out : comment * list (sdef unit) := Eval vm_compute in
  match schema_parse (F := unit) (fun _ => Some tt) ex_text with Some s => match simplify_schema true s with Some o => o | None => ([], []) end | None => ([], []) end.
Example C92_ex : exists s o,
  text ex_text /\ schema_parse (F := unit) (fun _ => Some tt) ex_text = Some s /\ simplify_schema true s = Some o
  /\ PropRustNames.expressible (fun _ => true) (ps_defs s) /\ chars ex_unprintable /\ prints (F := unit) (fun _ => Some tt) (fun _ => true) (fun _ => tx "-1.5")
  /\ within (PConst [tx "The first."] (tx "A") (PPrim PrString) (LString [113; 34; 27; 0; 49])) (ps_defs s)
  /\ (exists b, In (G Brc b) (schema_tokens false (fun _ => tx "-1.5") ex_unprintable (snd o))
       /\ In (Q (tx """q\""\u{1b}\x001""")) b /\ In (Q (tx "b""\x001\xC8""")) b /\ In (P [45]) b /\ In (Q (tx "5")) b /\ In (Q (tx "1.5")) b).
Proof.
  eexists. eexists. split.
  { apply Forall_forall. intros c Hc. vm_compute in Hc. left. repeat (destruct Hc as [<-|Hc]; [reflexivity|]). destruct Hc. }
  split; [vm_compute; reflexivity|]. split; [vm_compute; reflexivity|].
  split.
  {  eapply (PropRustNames.expressible_iff (fun _ : unit => true) true _ ex_out); [vm_compute; reflexivity|vm_compute; reflexivity]. }
  split; [intros c H; unfold ex_unprintable in H; left; lia|].
  split.
  { intros [] _. split; [|reflexivity]. exists [45], [49], [53]. split; [right; reflexivity|]. split; [split; [discriminate|repeat constructor; lia]|]. split; [split; [discriminate|repeat constructor; lia]|reflexivity]. }
  split; [eapply within_module; [left; reflexivity|apply within_here; left; reflexivity]|].
  eexists. split; [apply (in_or_app (removelast (schema_tokens false (fun _ => tx "-1.5") ex_unprintable (snd ex_out))) [last (schema_tokens false (fun _ => tx "-1.5") ex_unprintable (snd ex_out)) comma]); right; left; vm_compute; reflexivity|]. vm_compute. tauto.
Qed.
