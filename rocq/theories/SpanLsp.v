(** From located words to the protocol's positions. *)
From Verif Require Import Base Syntax Parser ParserSpec Printer Compiler Meta Lsp LspSpec LspProofs LspServer SpanParser LspVisit TokenSpec NameSpec SpanProofs SpanTypes SpanDefs SpanSchema.
Require Coq.Strings.String.
Import Coq.Strings.String.StringSyntax.
Local Open Scope N_scope.

(** * Ranges *)
Lemma get_range_pos ix a b p q : get_position ix a = LOk p -> get_position ix b = LOk q -> get_range ix (a, b) = LOk (p, q).
Proof.
  unfold get_position, get_range. cbn [fst snd]. destruct (line_col (ix_index ix) (a mod 2 ^ 32)) as [s| |]; cbn [lbind]; try discriminate.
  destruct (line_col (ix_index ix) (b mod 2 ^ 32)) as [e| |]; cbn [lbind].
  - destruct (ix_encoding ix) as [w|]; intros H K; [rewrite H, K; reflexivity|]. injection H as ->. injection K as ->. reflexivity.
  - discriminate.
  - discriminate.
Qed.
Lemma get_range_at enc src ix l t : index_of enc src ix -> at_loc src l t ->
  exists pre suf, src = pre ++ t ++ suf /\ l = (bytes_len pre, bytes_len (pre ++ t)) /\ get_range ix l = LOk (end_of enc pre, end_of enc (pre ++ t)).
Proof.
  intros Hix (pre & suf & -> & ->). exists pre, suf. split; [reflexivity|]. split; [reflexivity|].
  apply get_range_pos; [exact (get_position_ok enc pre (t ++ suf) ix Hix)|]. apply (get_position_ok enc (pre ++ t) suf ix). rewrite <- app_assoc. exact Hix.
Qed.
Lemma advance_flat enc t : ~ In nl t -> forall p, p_line (advance enc p t) = p_line p.
Proof.
  induction t as [|c t IH]; intros H p; [reflexivity|]. cbn [advance]. rewrite IH by (intros K; apply H; right; exact K).
  destruct (c =? nl) eqn:E; [|reflexivity]. apply N.eqb_eq in E. subst c. exfalso. apply H. left. reflexivity.
Qed.
Lemma pos_le_trans p q r : pos_le p q -> pos_le q r -> pos_le p r.
Proof. unfold pos_le. lia. Qed.
Lemma offs_suffix src pre i : src = pre ++ i -> offs (bytes_len src) i = bytes_len pre.
Proof. intros ->. unfold offs. rewrite bytes_len_app. lia. Qed.

(** A token is what a call of [add_span] asks for. *)
Definition renders (ix : index) (t : tspan) (k : token) : Prop :=
  get_range ix (ts_loc t) = LOk (tk_start k, tk_end k) /\ tk_type k = token_type_pos (ts_kind t) /\ tk_mods k = token_modifier_bitset (ts_mods t).
Lemma tokd_tokens enc chk src ix i l s : index_of enc src ix -> tokd (bytes_len src) i [] l s ->
  forall pre delta, src = pre ++ i -> pos_le delta (end_of enc pre) ->
  exists ts, highlighted enc pre i s ts /\ in_order delta ts /\ emit_spans chk ix delta l = emit chk delta ts /\ Forall2 (renders ix) l ts.
Proof.
  intros Hix H. remember [] as r eqn:Er. induction H as [g r Hg|g t i r P l s Hg Hp H IH|g t i r k m P l s Hg Hp Ht Hn H IH]; subst r; intros pre delta Hs Hd.
  - exists []. rewrite app_nil_r. split; [constructor; exact Hg|]. split; [exact I|split; [reflexivity|constructor]].
  - destruct (IH eq_refl (pre ++ g ++ t) delta) as (ts & H1 & H2 & H3).
    { rewrite Hs, <- !app_assoc. reflexivity. }
    { apply (pos_le_trans _ _ _ Hd). unfold end_of. rewrite advance_app. apply advance_le. }
    exists ts. split; [constructor; assumption|auto].
  - destruct (IH eq_refl (pre ++ g ++ t) (end_of enc (pre ++ g))) as (ts & H1 & H2 & H3 & H4).
    { rewrite Hs, <- !app_assoc. reflexivity. }
    { rewrite app_assoc. unfold end_of. rewrite (advance_app enc (Pos 0 0) (pre ++ g) t). apply advance_le. }
    eexists. split; [apply hl_word; eassumption|].
    assert (Hr : get_range ix (offs (bytes_len src) (t ++ i), offs (bytes_len src) i) = LOk (end_of enc (pre ++ g), end_of enc (pre ++ g ++ t))).
    { rewrite (offs_suffix src (pre ++ g) (t ++ i)) by (rewrite Hs, <- !app_assoc; reflexivity).
      rewrite (offs_suffix src (pre ++ g ++ t) i) by (rewrite Hs, <- !app_assoc; reflexivity).
      assert (A : at_loc src (bytes_len (pre ++ g), bytes_len ((pre ++ g) ++ t)) t).
      { exists (pre ++ g), i. split; [rewrite Hs, <- !app_assoc; reflexivity|reflexivity]. }
      apply get_range_pos.
      - apply (get_position_ok enc (pre ++ g) (t ++ i)). rewrite <- app_assoc, <- Hs. exact Hix.
      - apply (get_position_ok enc (pre ++ g ++ t) i). rewrite <- !app_assoc, <- Hs. exact Hix. }
    split.
    + cbn [in_order tk_start tk_end]. split; [|split; [|split; [|exact H2]]].
      * apply (pos_le_trans _ _ _ Hd). unfold end_of. rewrite advance_app. apply advance_le.
      * rewrite app_assoc. unfold end_of. rewrite (advance_app enc (Pos 0 0) (pre ++ g) t). symmetry. apply advance_flat. exact Hn.
      * rewrite app_assoc. unfold end_of. rewrite (advance_app enc (Pos 0 0) (pre ++ g) t). apply advance_char_ge. apply advance_flat. exact Hn.
    + split; [cbn [emit_spans emit ts_loc ts_kind ts_mods]; rewrite Hr; cbn [lbind fst snd tk_start]; rewrite H3; reflexivity|].
      constructor; [|exact H4]. split; [exact Hr|split; reflexivity].
Qed.

(** * Names *)
Definition name_kind (k : tkind) : bool :=
  match k with
  | TkNamespace | TkType | TkEnum | TkStruct | TkTypeParameter | TkVariable | TkProperty | TkEnumMember | TkTypeAlias => true
  | _ => false
  end.
Definition ft (l : list tspan) : list tspan := filter (fun t => name_kind (ts_kind t)) l.
Definition fi (l : list item) : list item := filter (fun w => match w with Item k _ _ => name_kind k | Silent _ => false end) l.
Definition span_of_word (w : lword) : tspan := TSpan (ln_loc (lw_name w)) (lw_kind w) (lw_mods w).
Definition item_of_word (w : lword) : item := Item (lw_kind w) (lw_mods w) (eq (ln_text (lw_name w))).
Definition named (l : list tspan) (s : list item) (ws : list lword) : Prop := ft l = map span_of_word ws /\ fi s = map item_of_word ws.
Lemma named_app l1 l2 s1 s2 w1 w2 : named l1 s1 w1 -> named l2 s2 w2 -> named (l1 ++ l2) (s1 ++ s2) (w1 ++ w2).
Proof. unfold named, ft, fi. intros [A B] [C D]. rewrite !filter_app, !map_app, A, B, C, D; auto. Qed.
Lemma named_nil : named [] [] [].
Proof. split; reflexivity. Qed.
Lemma named_skip_t t l s w : name_kind (ts_kind t) = false -> named l s w -> named (t :: l) s w.
Proof. unfold named, ft. cbn [filter]. intros ->. auto. Qed.
Lemma named_skip_i k m P l s w : name_kind k = false -> named l s w -> named l (Item k m P :: s) w.
Proof. unfold named, fi. cbn [filter]. intros ->. auto. Qed.
Lemma named_silent P l s w : named l s w -> named l (Silent P :: s) w.
Proof. unfold named, fi. cbn [filter]. auto. Qed.
Lemma named_cons n k m l s w : name_kind k = true -> named l s w -> named (TSpan (ln_loc n) k m :: l) (Item k m (eq (ln_text n)) :: s) (LWord n k m :: w).
Proof. unfold named, ft, fi. cbn [filter ts_kind]. intros ->. intros [-> ->]. split; reflexivity. Qed.
Lemma named_end_t l s w t : name_kind (ts_kind t) = false -> named l s w -> named (l ++ [t]) s w.
Proof. intros Ht H. rewrite <- (app_nil_r s), <- (app_nil_r w). apply named_app; [exact H|]. apply named_skip_t; [exact Ht|apply named_nil]. Qed.
Lemma named_end_i l s w x : fi [x] = [] -> named l s w -> named l (s ++ [x]) w.
Proof. intros Hx [A B]. split; [exact A|]. unfold fi in *. rewrite filter_app, Hx, app_nil_r. exact B. Qed.

Section LtyInd.
Variable P : lty -> Prop.
Hypothesis HPrim : forall s p, P (LTPrim s p).
Hypothesis HOne : forall s k kw o c t, P t -> P (LTOne s k kw o c t).
Hypothesis HMap : forall s kw o c k m v, P k -> P v -> P (LTMap s kw o c k m v).
Hypothesis HTuple : forall s o c l x b, (forall e, In e l -> P (fst e)) -> P (fst x) -> P (LTTuple s o c (Punct l x b)).
Hypothesis HArray : forall s o c t m n, P t -> P (LTArray s o c t m n).
Hypothesis HExt0 : forall s path n, P (LTExt s path n None).
Hypothesis HExt : forall s path n ang l x b, (forall e, In e l -> P (fst e)) -> P (fst x) -> P (LTExt s path n (Some (ang, Punct l x b))).
Fixpoint lty_ind2 (t : lty) : P t :=
  let all := fix all (l : list (lty * option loc)) : forall e, In e l -> P (fst e) :=
    match l return forall e, In e l -> P (fst e) with
    | [] => fun e H => match H with end
    | x :: l' => fun e H => match H with
                            | or_introl E => match E in _ = y return P (fst y) with eq_refl => lty_ind2 (fst x) end
                            | or_intror H' => all l' e H'
                            end
    end in
  match t with
  | LTPrim s p => HPrim s p
  | LTOne s k kw o c t => HOne s k kw o c t (lty_ind2 t)
  | LTMap s kw o c k m v => HMap s kw o c k m v (lty_ind2 k) (lty_ind2 v)
  | LTTuple s o c (Punct l x b) => HTuple s o c l x b (all l) (lty_ind2 (fst x))
  | LTArray s o c t m n => HArray s o c t m n (lty_ind2 t)
  | LTExt s path n None => HExt0 s path n
  | LTExt s path n (Some (ang, Punct l x b)) => HExt s path n ang l x b (all l) (lty_ind2 (fst x))
  end.
End LtyInd.
Section LdefInd.
Context {F : Type}.
Variable P : ldef F -> Prop.
Hypothesis HModule : forall c kw n o e ds, (forall d, In d ds -> P d) -> P (LModule c kw n o e ds).
Hypothesis HStruct : forall c a kw n g fs, P (LStruct c a kw n g fs).
Hypothesis HEnum : forall c a kw n g o e vs, P (LEnum c a kw n g o e vs).
Hypothesis HAlias : forall c kw n g e t m, P (LAlias c kw n g e t m).
Hypothesis HConst : forall c kw n k t e v vl m, P (LConst c kw n k t e v vl m).
Hypothesis HImport : forall kw segs el m, P (LImport kw segs el m).
Fixpoint ldef_ind2 (d : ldef F) : P d :=
  match d with
  | LModule c kw n o e ds => HModule c kw n o e ds
      ((fix all (l : list (ldef F)) : forall d, In d l -> P d :=
          match l return forall d, In d l -> P d with
          | [] => fun d H => match H with end
          | x :: l' => fun d H => match H with
                                  | or_introl E => match E in _ = y return P y with eq_refl => ldef_ind2 x end
                                  | or_intror H' => all l' d H'
                                  end
          end) ds)
  | LStruct c a kw n g fs => HStruct c a kw n g fs
  | LEnum c a kw n g o e vs => HEnum c a kw n g o e vs
  | LAlias c kw n g e t m => HAlias c kw n g e t m
  | LConst c kw n k t e v vl m => HConst c kw n k t e v vl m
  | LImport kw segs el m => HImport kw segs el m
  end.
End LdefInd.

Lemma named_commad {A} (f : A -> list tspan) e s w (b : bool) : named (f (fst e)) s w -> named (commad f e) (s ++ if b then [comma_item] else []) w.
Proof.
  intros H. unfold commad. rewrite <- (app_nil_r w). apply named_app; [exact H|]. destruct (snd e), b; repeat first [apply named_skip_t; [reflexivity|]|apply named_skip_i; [reflexivity|]|apply named_nil].
Qed.
Lemma named_list {A B} (f : A -> list tspan) (h : A -> B) (g : B -> list item) (w : A -> list lword) (l : list (A * option loc)) x (b : bool) :
  (forall e, In e l -> named (f (fst e)) (g (h (fst e))) (w (fst e))) -> named (f (fst x)) (g (h (fst x))) (w (fst x)) ->
  named (flat_map (commad f) l ++ commad f x)
    (flat_map (fun a => g a ++ [comma_item]) (map (fun e => h (fst e)) l) ++ g (h (fst x)) ++ (if b then [comma_item] else []))
    (flat_map (fun e => w (fst e)) l ++ w (fst x)).
Proof.
  intros Hl Hx. apply named_app; [|apply (named_commad f x _ _ b); exact Hx]. induction l as [|e l IH]; [apply named_nil|]. cbn [flat_map map].
  apply named_app; [|apply IH; intros e' He; apply Hl; right; exact He]. apply (named_commad f e _ _ true). apply Hl. left. reflexivity.
Qed.
Lemma named_punct {A B} (f : A -> list tspan) (h : A -> B) (g : B -> list item) (w : A -> list lword) (p : lpunct A) :
  (forall e, named (f e) (g (h e)) (w e)) -> named (punct_toks f p) (punct_items g (p_map (fun e => h (fst e)) p)) (punct_names w p).
Proof. intros H. destruct p as [l x b]. cbn [punct_toks punct_items p_map punct_names]. apply (named_list f h g w l x b); auto. Qed.
Lemma named_between l s w k o c oc cc : name_kind k = false -> named l s w -> named (tk o k :: l ++ [tk c k]) (between k oc s cc) w.
Proof.
  intros Hk H. unfold between, word, tk. apply named_skip_t; [exact Hk|]. apply named_skip_i; [exact Hk|]. rewrite <- (app_nil_r w). apply named_app; [exact H|].
  apply named_skip_t; [exact Hk|]. apply named_skip_i; [exact Hk|]. apply named_nil.
Qed.
Lemma named_type t : named (type_toks t) (type_items (er_ty t)) (type_names t).
Proof.
  induction t as [s p|s k kw o c t IH|s kw o c k m v IHk IHv|s o c l x b Hl Hx|s o c t m n IH|s path n|s path n [o c] l x b Hl Hx] using lty_ind2.
  - cbn. apply named_skip_t; [reflexivity|]. apply named_skip_i; [reflexivity|]. apply named_nil.
  - assert (G : forall kws, named (type_toks (LTOne s k kw o c t)) (word TkBuiltinType kws :: between TkAngle (tx "<") (type_items (er_ty t)) (tx ">")) (type_names t)).
    { intros kws. cbn [type_toks]. apply named_skip_t; [reflexivity|]. apply named_skip_i; [reflexivity|]. apply named_between; [reflexivity|exact IH]. }
    destruct k; apply G.
  - cbn [type_toks er_ty type_items type_names]. apply named_skip_t; [reflexivity|]. apply named_skip_i; [reflexivity|].
    change (tk o TkAngle :: type_toks k ++ tk m TkComma :: type_toks v ++ [tk c TkAngle]) with (tk o TkAngle :: (type_toks k ++ (tk m TkComma :: type_toks v) ++ [tk c TkAngle])).
    rewrite app_assoc. apply named_between; [reflexivity|]. apply named_app; [exact IHk|]. apply named_skip_t; [reflexivity|]. apply named_skip_i; [reflexivity|]. exact IHv.
  - cbn [type_toks er_ty type_items type_names]. apply named_between; [reflexivity|]. apply (named_list type_toks er_ty type_items type_names l x b Hl Hx).
  - cbn [type_toks er_ty type_items type_names].
    replace (type_toks t ++ [tk m TkSemicolon; tk c TkBracket]) with ((type_toks t ++ [tk m TkSemicolon]) ++ [tk c TkBracket]) by (rewrite <- app_assoc; reflexivity).
    apply named_between; [reflexivity|]. rewrite <- (app_nil_r (type_names t)). apply named_app; [exact IH|].
    apply named_skip_t; [reflexivity|]. apply named_skip_i; [reflexivity|]. apply named_silent. apply named_nil.
  - cbn [type_toks er_ty type_items type_names]. apply named_app; [|apply named_cons; [reflexivity|apply named_nil]].
    induction path as [|e path IH]; [apply named_nil|]. cbn [flat_map map app]. apply named_cons; [reflexivity|]. apply named_skip_t; [reflexivity|]. apply named_skip_i; [reflexivity|]. exact IH.
  - cbn [type_toks er_ty type_items type_names]. apply named_app.
    + clear Hl Hx. induction path as [|e path IH]; [apply named_nil|]. cbn [flat_map map app]. apply named_cons; [reflexivity|]. apply named_skip_t; [reflexivity|]. apply named_skip_i; [reflexivity|]. exact IH.
    + apply named_cons; [reflexivity|]. apply named_between; [reflexivity|]. apply (named_list type_toks er_ty type_items type_names l x b Hl Hx).
Qed.
Lemma named_comments c l s w : named l s w -> named (comment_toks c ++ l) (comment_items (er_comment c) ++ s) w.
Proof.
  intros H. induction c as [|x c IH]; [exact H|]. cbn [comment_toks er_comment map comment_items app]. apply named_skip_t; [reflexivity|]. apply named_skip_i; [reflexivity|]. exact IH.
Qed.
Lemma named_id i l s w : named l s w -> named (l ++ id_toks i) (s ++ id_items (er_id i)) w.
Proof.
  intros H. destruct i as [[n x]|]; cbn [id_toks er_id option_map fst id_items]; [|rewrite !app_nil_r; exact H].
  apply named_end_i; [reflexivity|]. apply named_end_t; [reflexivity|]. exact H.
Qed.
Lemma named_nfield f : named (nfield_toks f) (nfield_items (er_nfield f)) (nfield_names f).
Proof.
  unfold nfield_toks, nfield_items, nfield_names, er_nfield. cbn [nf_comment nf_name nf_ty nf_id]. apply named_comments.
  apply named_cons; [reflexivity|]. apply named_skip_t; [reflexivity|]. apply named_skip_i; [reflexivity|]. apply named_id, named_type.
Qed.
Lemma named_ufield f : named (ufield_toks f) (ufield_items (er_ufield f)) (ufield_names f).
Proof. apply named_id, named_type. Qed.
Lemma named_fields fs : named (fields_toks fs) (fields_items (er_fields fs)) (fields_names fs).
Proof.
  destruct fs as [o c l|o c l|]; cbn [fields_toks er_fields fields_items fields_names]; [| |apply named_nil]; (apply named_between; [reflexivity|]).
  - apply (named_punct nfield_toks er_nfield nfield_items nfield_names), named_nfield.
  - apply (named_punct ufield_toks er_ufield ufield_items ufield_names), named_ufield.
Qed.
Lemma named_variant v : named (variant_toks v) (variant_items (er_variant v)) (variant_names v).
Proof.
  unfold variant_toks, variant_items, variant_names, er_variant. cbn [pv_comment pv_name pv_fields pv_id]. apply named_comments.
  apply named_cons; [reflexivity|]. apply named_id, named_fields.
Qed.
Lemma named_generics g : named (generics_toks g) (generics_items (er_generics g)) (generics_names g).
Proof.
  destruct g as [p|]; [|apply named_nil]. cbn [generics_toks er_generics option_map generics_items generics_names]. apply named_silent. apply named_end_i; [reflexivity|].
  apply (named_punct (fun n => [decl n TkTypeParameter]) ln_text (fun n => [declared TkTypeParameter n]) (fun n => [declares TkTypeParameter n])).
  intros n. apply named_cons; [reflexivity|apply named_nil].
Qed.
Section Defs.
Context {F : Type}.
Variable pf : str -> option F.
Lemma named_def d : named (def_toks d) (def_items pf (er_def d)) (def_names d).
Proof.
  induction d as [c kw n o e ds IH|c a kw n g fs|c a kw n g o e vs|c kw n g e t m|c kw n k t e v vl m|kw segs el m] using ldef_ind2; rewrite def_items_split;
    cbn [def_toks er_def def_head def_body def_names]; rewrite <- ?app_assoc; try (apply named_comments; cbn [app]; apply named_silent; apply named_skip_t; [reflexivity|]; apply named_skip_i; [reflexivity|]).
  - apply named_cons; [reflexivity|]. apply named_between; [reflexivity|]. induction ds as [|d ds IHds]; [apply named_nil|]. cbn [flat_map map]. apply named_app; [apply IH; left; reflexivity|].
    apply IHds. intros d' H. apply IH. right. exact H.
  - apply named_cons; [reflexivity|]. apply named_app; [apply named_generics|apply named_fields].
  - apply named_cons; [reflexivity|]. apply named_app; [apply named_generics|]. apply named_between; [reflexivity|].
    apply (named_punct variant_toks er_variant variant_items variant_names), named_variant.
  - apply named_cons; [reflexivity|]. apply named_app; [apply named_generics|]. apply named_skip_t; [reflexivity|]. apply named_skip_i; [reflexivity|].
    apply named_end_t; [reflexivity|]. apply named_end_i; [reflexivity|]. apply named_type.
  - apply named_cons; [reflexivity|]. apply named_skip_t; [reflexivity|]. apply named_skip_i; [reflexivity|]. rewrite <- (app_nil_r (type_names t)). apply named_app; [apply named_type|].
    apply named_skip_t; [reflexivity|]. apply named_skip_i; [reflexivity|]. apply named_end_t; [reflexivity|]. apply named_end_i; [reflexivity|].
    destruct v as [[|]| | | |]; cbn; repeat first [apply named_skip_t; [reflexivity|]|apply named_skip_i; [reflexivity|]|apply named_silent|apply named_nil].
  - cbn [app]. apply named_silent, named_silent. apply named_skip_t; [reflexivity|]. apply named_skip_i; [reflexivity|].
    apply named_app.
    + destruct segs as [|s segs]; [apply named_nil|]. cbn [map]. apply named_cons; [reflexivity|]. induction segs as [|s' segs IH]; [apply named_nil|].
      cbn [map flat_map app]. apply named_silent. apply named_cons; [reflexivity|]. exact IH.
    + apply named_end_i; [reflexivity|]. destruct el as [[dl n]|]; cbn; [|apply named_nil]. apply named_skip_t; [reflexivity|]. apply named_skip_i; [reflexivity|].
      apply named_cons; [reflexivity|]. apply named_nil.
Qed.
Lemma named_hush l s w i : named l s w -> fi i = [] -> named l (i ++ s) w.
Proof. intros [A B] H. split; [exact A|]. unfold fi in *. rewrite filter_app, H. exact B. Qed.
Lemma named_schema s : named (schema_toks s) (schema_items pf (er_schema s)) (schema_names s).
Proof.
  unfold schema_toks, schema_items, schema_names, er_schema. cbn [ps_comment ps_defs]. apply named_hush.
  - induction (ls_defs s) as [|d ds IH]; [apply named_nil|]. cbn [flat_map map]. apply named_app; [apply named_def|exact IH].
  - induction (er_comment (ls_comment s)) as [|x c IH]; [reflexivity|exact IH].
Qed.
End Defs.

Definition wloc (w : lword) : loc := ln_loc (lw_name w).
Definition wtext (w : lword) : str := ln_text (lw_name w).
Lemma tokd_names src i r l s ws : tokd (bytes_len src) i r l s -> named l s ws -> forall pre, src = pre ++ i ->
  Forall (fun w => at_loc src (wloc w) (wtext w) /\ wtext w <> [] /\ bytes_len pre <= fst (wloc w)) ws /\ in_turn (map wloc ws).
Proof.
  intros H. revert ws. induction H as [g r Hg|g t i r P l s Hg Hp H IH|g t i r k m P l s Hg Hp Ht Hn H IH]; intros ws [Hl Hs] pre Hsrc.
  - destruct ws; [|discriminate]. split; [constructor|constructor].
  - assert (Es : src = (pre ++ g ++ t) ++ i) by (rewrite Hsrc, <- !app_assoc; reflexivity). destruct (IH ws (conj Hl Hs) _ Es) as [A B]. split; [|exact B].
    eapply Forall_impl; [|exact A]. cbn beta. intros w (H1 & H2 & H3). repeat split; auto. rewrite !bytes_len_app in H3. lia.
  - assert (Es : src = (pre ++ g ++ t) ++ i) by (rewrite Hsrc, <- !app_assoc; reflexivity). unfold ft, fi in Hl, Hs. cbn [filter ts_kind] in Hl, Hs.
    destruct (name_kind k).
    + destruct ws as [|w ws]; [discriminate|]. cbn [map] in Hl, Hs. injection Hl as E1 E2 E3 Hl. injection Hs as E4 E5 E6 Hs.
      destruct (IH ws (conj Hl Hs) _ Es) as [A B]. rewrite E6 in Hp. change (ln_text (lw_name w)) with (wtext w) in Hp. subst t.
      assert (El : wloc w = (bytes_len (pre ++ g), bytes_len ((pre ++ g) ++ wtext w))).
      { change (ln_loc (lw_name w)) with (wloc w) in E1. rewrite <- E1. f_equal.
        - apply offs_suffix. rewrite Hsrc, <- !app_assoc. reflexivity.
        - rewrite <- app_assoc. apply offs_suffix. exact Es. }
      split.
      * constructor; [|eapply Forall_impl; [|exact A]; cbn beta; intros w' (H1 & H2 & H3); repeat split; auto; rewrite !bytes_len_app in H3; lia].
        split; [|split; [exact Ht|]].
        -- exists (pre ++ g), i. split; [rewrite Hsrc, <- !app_assoc; reflexivity|exact El].
        -- rewrite El. cbn [fst]. rewrite bytes_len_app. lia.
      * cbn [map]. constructor; [|exact B]. rewrite Forall_map. eapply Forall_impl; [|exact A]. cbn beta. intros w' (_ & _ & H3).
        rewrite El. cbn [snd]. rewrite <- app_assoc. exact H3.
    + destruct (IH ws (conj Hl Hs) _ Es) as [A B]. split; [|exact B].
      eapply Forall_impl; [|exact A]. cbn beta. intros w (H1 & H2 & H3). repeat split; auto. rewrite !bytes_len_app in H3. lia.
Qed.
