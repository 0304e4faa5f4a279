(** Property theorems C63 to C66: locations in the syntax tree, and what the language server makes of them. *)
From Verif Require Import Base Syntax Parser ParserSpec Printer Compiler Meta Lsp LspSpec LspProofs LspServer SpanParser LspVisit TokenSpec NameSpec OutlineSpec
  SpanProofs SpanTypes SpanDefs SpanSchema SpanLsp SpanPlaced OutlineProofs.
Require Coq.Strings.String.
Import Coq.Strings.String.StringSyntax.
Local Open Scope N_scope.

(** * C63: locations *)

(** The located tree without its locations is the tree that the other properties speak of. *)
Theorem C63_same_schema : forall {F} (parse_f64 : str -> option F) (src : str), text src ->
  option_map er_schema (lschema_parse parse_f64 src) = schema_parse parse_f64 src.
Proof. intros F pf src H. exact (proj1 (lschema_ok pf src H)). Qed.
Print Assumptions C63_same_schema.

(** The location of every name in the tree is where the name stands in the source, and the locations follow each other. *)
Theorem C63_names : forall {F} (parse_f64 : str -> option F) (src : str) (s : lschema F), text src ->
  lschema_parse parse_f64 src = Some s ->
  Forall (fun w => at_loc src (ln_loc (lw_name w)) (ln_text (lw_name w)) /\ ln_text (lw_name w) <> []) (schema_names s)
  /\ in_turn (map (fun w => ln_loc (lw_name w)) (schema_names s)).
Proof. intros F pf src s H Hp. exact (doc_names pf src s H Hp). Qed.
Print Assumptions C63_names.

(** The same for types, ids, comment lines, fields, variants and the paths of imports: reading the source there gives the
    node. *)
Theorem C63_nodes : forall {F} (parse_f64 : str -> option F) (src : str) (s : lschema F), text src ->
  lschema_parse parse_f64 src = Some s -> Forall (node_ok src) (schema_nodes s).
Proof. intros F pf src s H Hp. exact (doc_nodes pf src s H Hp). Qed.
Print Assumptions C63_nodes.

(** * C64: semantic tokens *)

(** The words of the text are highlighted, in order, at their places, with the types and modifiers they have in the schema. *)
Theorem C64_tokens : forall {F} (parse_f64 : str -> option F) (chk : bool) (enc : option wenc) (src : str) (i : line_index) (s : lschema F),
  text src -> li_new src = Some i -> lschema_parse parse_f64 src = Some s ->
  exists l, semantic_tokens chk (Index i enc) s = LOk l
    /\ highlighted enc [] src (schema_items parse_f64 (er_schema s)) (decode_tokens (Pos 0 0) l).
Proof.
  intros F pf chk enc src i s Ht Hi Hp. destruct (doc_tokens pf enc src (Index i enc) s Ht (ex_intro _ i (conj Hi eq_refl)) Hp chk) as (l & ts & H1 & <- & H3 & _). eauto.
Qed.
Print Assumptions C64_tokens.

(** The numbers of types and modifiers are positions in the lists the server announces when it starts (mod.rs L113-121): an editor that looks a token up there finds its type
    and exactly its modifiers. *)
Theorem C64_legend : (forall k, nth_error token_types (N.to_nat (token_type_pos k)) = Some k)
  /\ forall ms i, N.testbit (token_modifier_bitset ms) i = true <-> exists m, nth_error token_modifiers (N.to_nat i) = Some m /\ In m ms.
Proof.
  split; [intros k; destruct k; reflexivity|]. intros ms i. unfold token_modifier_bitset. rewrite bitset_ok. generalize (N.to_nat i). clear i. generalize token_modifiers. intros l. induction l as [|m l IH]; intros n.
  - split; [destruct n; discriminate|]. intros (m & H & _). destruct n; discriminate.
  - destruct n as [|n]; cbn [map nth nth_error]; [|apply IH]. destruct (in_dec tmod_eq_dec m ms) as [H|H]; split; intros H1; try discriminate; try reflexivity; [exists m; auto|].
    destruct H1 as (m' & E & H'). exfalso. apply H. congruence.
Qed.
Print Assumptions C64_legend.

(** * C65: document symbols *)

Theorem C65_outline : forall {F} (parse_f64 : str -> option F) (enc : option wenc) (src : str) (i : line_index) (s : lschema F),
  text src -> li_new src = Some i -> lschema_parse parse_f64 src = Some s ->
  exists syms, document_symbols (Index i enc) s = LOk syms
    /\ Forall2 (shows enc src) (map def_outline (ps_defs (er_schema s))) syms.
Proof.
  intros F pf enc src i s Ht Hi Hp. destruct (doc_symbols pf enc src (Index i enc) s Ht (ex_intro _ i (conj Hi eq_refl)) Hp) as (l & H1 & H2 & _). eauto.
Qed.
Print Assumptions C65_outline.

(** The ranges of the declarations among the tokens. *)
Definition declared_ranges (ts : list token) : list (Lsp.pos * Lsp.pos) := map (fun t => (tk_start t, tk_end t)) (filter declaring ts).

Section Link.
Context {F : Type}.
Variables (pf : str -> option F) (enc : option wenc) (src : str) (ix : index) (s : lschema F).
Hypothesis Htext : text src.
Hypothesis Hix : index_of enc src ix.
Hypothesis Hparse : lschema_parse pf src = Some s.
Variables (cfg : hover_cfg) (chk : bool).
Definition s_entries : list entry := flat_map (def_entries cfg chk) (ls_defs s).

Definition dspan (t : tspan) : bool := N.testbit (token_modifier_bitset (ts_mods t)) 0 && existsb (fun k => token_type_pos (ts_kind t) =? token_type_pos k) declaring_kinds.
Lemma dspan_name t : dspan t = true -> name_kind (ts_kind t) = true.
Proof. unfold dspan. intros H. apply andb_true_iff in H as [_ H]. destruct t as [l k m]; destruct k; cbn in H |- *; congruence. Qed.
Lemma filter_sub {A} (f g : A -> bool) l : (forall a, f a = true -> g a = true) -> filter f (filter g l) = filter f l.
Proof.
  intros H. induction l as [|a l IH]; [reflexivity|]. cbn [filter]. destruct (g a) eqn:G; cbn [filter]; rewrite IH; [reflexivity|].
  destruct (f a) eqn:E; [|reflexivity]. rewrite (H a E) in G. discriminate.
Qed.
Lemma filter_map {A B} (f : A -> B) (g : B -> bool) l : filter g (map f l) = map f (filter (fun a => g (f a)) l).
Proof. induction l as [|a l IH]; [reflexivity|]. cbn [map filter]. destruct (g (f a)); cbn [map]; rewrite IH; reflexivity. Qed.
Lemma renders_filter l ts : Forall2 (renders ix) l ts -> Forall2 (renders ix) (filter dspan l) (filter declaring ts).
Proof.
  induction 1 as [|t k l ts H _ IH]; [constructor|]. cbn [filter]. assert (E : declaring k = dspan t). { destruct H as (_ & H2 & H3). unfold declaring, dspan. rewrite H2, H3. reflexivity. }
  rewrite E. destruct (dspan t); [constructor; assumption|exact IH].
Qed.
Definition has_range (e : entry) (r : Lsp.pos * Lsp.pos) : Prop := get_range ix (ln_loc (fst e)) = LOk r.
Lemma entries_dw : map fst s_entries = dw (schema_names s).
Proof. unfold s_entries, schema_names. rewrite dw_flat. apply map_flat_map. intros d _. apply def_dw. Qed.
Lemma declared_entries ts : Forall2 (renders ix) (schema_toks s) ts -> Forall2 has_range s_entries (declared_ranges ts).
Proof.
  intros H. apply renders_filter in H. rewrite <- (filter_sub dspan (fun t => name_kind (ts_kind t)) (schema_toks s) dspan_name) in H.
  destruct (named_schema pf s) as [En _]. unfold ft in En. rewrite En in H. rewrite filter_map in H.
  assert (E : filter (fun a => dspan (span_of_word a)) (schema_names s) = filter declaring_word (schema_names s)) by reflexivity. rewrite E in H. clear E En.
  assert (Ew : map lw_name (filter declaring_word (schema_names s)) = map fst s_entries) by (symmetry; exact entries_dw).
  revert Ew. generalize s_entries as es. generalize dependent (filter declaring_word (schema_names s)). unfold declared_ranges. generalize (filter declaring ts) as ks.
  induction ks as [|k ks IH]; intros ws H es Ew; destruct ws as [|w ws]; try (inversion H; fail); destruct es as [|e es]; try discriminate Ew; [constructor|].
  cbn [map] in *. injection Ew as E1 E2. inversion H as [|x1 x2 x3 x4 Hr Hrest]. subst. constructor; [|exact (IH ws Hrest es E2)].
  destruct Hr as (Hr & _). unfold has_range. rewrite <- E1. exact Hr.
Qed.
Lemma symbols_entries syms : Forall2 (ranged ix) (flat_map listed (map lsym (ls_defs s))) (flat_map listed syms) ->
  Forall2 has_range s_entries (name_ranges (map def_outline (ps_defs (er_schema s))) syms).
Proof.
  intros H. unfold name_ranges.
  assert (Eo : flat_map listed (map def_outline (ps_defs (er_schema s))) = map (fun e => (fst e, fst (snd e))) (flat_map listed (map lsym (ls_defs s)))).
  { cbn [er_schema ps_defs]. rewrite map_map. rewrite (map_ext_in (fun d => def_outline (er_def d)) (fun d => smap fst (lsym d))).
    - rewrite <- (map_map lsym (smap fst)). apply listed_smap_all.
    - intros d Hd. apply def_sym_o. exact (proj2 (doc_defs pf enc src ix s Htext Hix Hparse d Hd)). }
  assert (En : nm (flat_map listed (map lsym (ls_defs s))) = map eloc s_entries).
  { rewrite flat_map_map, nm_flat. unfold s_entries. symmetry. apply map_flat_map. intros d _. symmetry. apply def_nm. }
  rewrite Eo. clear Eo. revert En. generalize s_entries as es. induction H as [|x y xs ys Hxy Hrest IH]; intros es En.
  - destruct es; [constructor|discriminate En].
  - unfold nm in En. cbn [map combine filter fst snd] in *. destruct (is_name (fst (snd x))).
    + destruct es as [|e es]; [discriminate En|]. cbn [map snd] in *. injection En as E1 E2. constructor; [|apply IH; exact E2]. unfold has_range. unfold eloc in E1. rewrite <- E1. exact Hxy.
    + apply IH. exact En.
Qed.
Lemma has_range_inj es l l' : Forall2 has_range es l -> Forall2 has_range es l' -> l = l'.
Proof.
  intros H. revert l'. induction H as [|e r es l H _ IH]; intros l' H'; inversion H'; [reflexivity|]. subst. f_equal; [|apply IH; assumption]. unfold has_range in *. congruence.
Qed.

(** Entries at their places. *)
Definition at_place (e : entry) (a : str) : Prop := (exists b, src = a ++ ln_text (fst e) ++ b) /\ ln_loc (fst e) = (bytes_len a, bytes_len (a ++ ln_text (fst e))) /\ ln_text (fst e) <> [].
Lemma dw_in l n : In n (dw l) -> exists w, In w l /\ lw_name w = n.
Proof. intros H. apply in_map_iff in H as (w & E & H). apply filter_In in H as [H _]. eauto. Qed.
Lemma in_turn_filter {A} (f : A -> loc) (p : A -> bool) l : in_turn (map f l) -> in_turn (map f (filter p l)).
Proof.
  unfold in_turn. induction l as [|a l IH]; intros H; [exact H|]. cbn [map] in H. inversion H as [|x xs Hx Hxs]. subst. cbn [filter]. destruct (p a); [|exact (IH Hxs)].
  cbn [map]. constructor; [|exact (IH Hxs)]. rewrite Forall_forall in Hx |- *. intros y Hy. apply Hx. apply in_map_iff in Hy as (z & <- & Hz). apply in_map. apply filter_In in Hz. tauto.
Qed.
Lemma entries_places : exists places, Forall2 at_place s_entries places.
Proof.
  assert (H : forall e, In e s_entries -> exists a, at_place e a).
  { intros e He. assert (Hn : In (fst e) (dw (schema_names s))) by (rewrite <- entries_dw; apply in_map; exact He).
    apply dw_in in Hn as (w & Hw & En). destruct (doc_names pf src s Htext Hparse) as [H _]. rewrite Forall_forall in H. destruct (H w Hw) as [(pre & suf & E & El) Hne].
    unfold wloc, wtext in *. rewrite En in *. exists pre. split; [exists suf; exact E|auto]. }
  revert H. generalize s_entries as es. induction es as [|e es IH]; intros H; [exists []; constructor|].
  destruct (H e (or_introl eq_refl)) as [a Ha]. destruct IH as [l Hl]; [intros x Hx; apply H; right; exact Hx|]. exists (a :: l). constructor; assumption.
Qed.
Lemma entries_turn : in_turn (map eloc s_entries).
Proof.
  destruct (doc_names pf src s Htext Hparse) as [_ H]. assert (E : map eloc s_entries = map ln_loc (map fst s_entries)) by (rewrite map_map; reflexivity). rewrite E, entries_dw. unfold dw. rewrite map_map. apply (in_turn_filter wloc). exact H.
Qed.

(** The cursor behind [pre] is on the name behind [a]: before one of its chars. *)
Definition under (pre a name : str) : Prop := exists x y, name = x ++ y /\ y <> [] /\ pre = a ++ x.
Lemma bytes_pos t : t <> [] -> 0 < bytes_len t.
Proof. destruct t as [|c t]; [congruence|]. intros _. rewrite bytes_len_cons. pose proof (len8_pos c). lia. Qed.
Lemma prefix_of (a b x y : str) : a ++ x = b ++ y -> bytes_len a <= bytes_len b -> exists z, b = a ++ z.
Proof.
  revert b. induction a as [|c a IH]; intros b E H; [exists b; reflexivity|]. destruct b as [|d b].
  - pose proof (bytes_pos (c :: a) ltac:(discriminate)). assert (E0 : bytes_len [] = 0) by reflexivity. rewrite E0 in H. lia.
  - cbn [app] in E. injection E as -> E. destruct (IH b E) as [z ->]; [|exists z; reflexivity].
    change (d :: a) with ([d] ++ a) in H. change (d :: b) with ([d] ++ b) in H. rewrite !bytes_len_app in H. lia.
Qed.
Lemma contains_under e a pre suf : at_place e a -> src = pre ++ suf -> contains (ln_loc (fst e)) (bytes_len pre) = true <-> under pre a (ln_text (fst e)).
Proof.
  intros ((b & E) & El & Hne) Hs. rewrite El. unfold contains. cbn [fst snd]. rewrite andb_true_iff, N.leb_le, N.ltb_lt. split.
  - intros [H1 H2]. rewrite Hs in E. symmetry in E. destruct (prefix_of _ _ _ _ E H1) as [x ->]. rewrite <- app_assoc in E. apply app_inv_head in E.
    rewrite !bytes_len_app in H2. destruct (prefix_of x (ln_text (fst e)) suf b) as [y Hy]; [symmetry; exact E|lia|]. exists x, y. split; [exact Hy|split; [|reflexivity]]. intros ->.
    rewrite Hy, app_nil_r in H2. lia.
  - intros (x & y & Ey & Hy & ->). rewrite Ey, !bytes_len_app. pose proof (bytes_pos y Hy). lia.
Qed.
Lemma find_none p es : (forall e, In e es -> contains (ln_loc (fst e)) p = false) -> find_map (hit p) es = None.
Proof. induction es as [|e es IH]; intros H; [reflexivity|]. cbn [find_map]. unfold hit at 1. rewrite (H e (or_introl eq_refl)). apply IH. intros x Hx. apply H. right. exact Hx. Qed.
Lemma find_some p es e : in_turn (map eloc es) -> In e es -> contains (ln_loc (fst e)) p = true -> find_map (hit p) es = Some (snd e, ln_loc (fst e)).
Proof.
  unfold in_turn. induction es as [|d es IH]; intros Ht He Hc; [destruct He|]. cbn [map] in Ht. inversion Ht as [|x xs Hx Hxs]. subst. cbn [find_map]. unfold hit at 1.
  destruct He as [->|He]; [rewrite Hc; reflexivity|]. replace (contains (ln_loc (fst d)) p) with false; [apply IH; assumption|]. symmetry.
  rewrite Forall_forall in Hx. specialize (Hx (eloc e) (in_map eloc es e He)). unfold eloc in Hx. unfold contains in *. apply andb_true_iff in Hc as [Hc _]. apply N.leb_le in Hc.
  destruct (N.ltb_spec p (snd (ln_loc (fst d)))); [lia|apply andb_false_r].
Qed.
Lemma hover_find pre suf : src = pre ++ suf ->
  hover cfg chk ix s (end_of enc pre) = match find_map (hit (bytes_len pre)) s_entries with Some (t, l) => lbind (get_range ix l) (fun r => LOk (Some (t, r))) | None => LOk None end.
Proof.
  intros Hs. unfold hover. rewrite (get_offset_ok chk enc pre suf ix) by (rewrite <- Hs; exact Hix). cbn [lbind].
  rewrite (find_map_flat (fun d => def_hover cfg chk d (bytes_len pre)) (hit (bytes_len pre)) (def_entries cfg chk) (ls_defs s)); [reflexivity|]. intros d _. apply def_hover_entries.
Qed.
Lemma place_range e a : at_place e a -> get_range ix (ln_loc (fst e)) = LOk (end_of enc a, end_of enc (a ++ ln_text (fst e))).
Proof.
  intros ((b & E) & El & _). rewrite El. apply get_range_pos; [apply (get_position_ok enc a (ln_text (fst e) ++ b))|apply (get_position_ok enc (a ++ ln_text (fst e)) b); rewrite <- app_assoc]; rewrite <- E; exact Hix.
Qed.
End Link.

(** The declared names in the tokens are the entries of the outline that cover a name. *)
Theorem C65_ranges : forall {F} (parse_f64 : str -> option F) (chk : bool) (enc : option wenc) (src : str) (i : line_index) (s : lschema F) syms toks,
  text src -> li_new src = Some i -> lschema_parse parse_f64 src = Some s ->
  document_symbols (Index i enc) s = LOk syms -> semantic_tokens chk (Index i enc) s = LOk toks ->
  name_ranges (map def_outline (ps_defs (er_schema s))) syms = declared_ranges (decode_tokens (Pos 0 0) toks).
Proof.
  intros F pf chk enc src i s syms toks Ht Hi Hp Hs Hk. assert (Hix : index_of enc src (Index i enc)) by (exists i; auto).
  destruct (doc_symbols pf enc src _ s Ht Hix Hp) as (sy & E1 & _ & R1). assert (sy = syms) as -> by congruence.
  destruct (doc_tokens pf enc src _ s Ht Hix Hp chk) as (l & ts & E2 & <- & _ & R2). assert (l = toks) as -> by congruence.
  pose (cfg := HoverCfg true true).
  exact (has_range_inj _ _ _ _ (symbols_entries pf enc src _ s Ht Hix Hp cfg chk syms R1) (declared_entries pf _ s cfg chk _ R2)).
Qed.
Print Assumptions C65_ranges.

(** * C66: hovering *)

(** The names that can be hovered over stand at [places], where the declarations are highlighted.  With the cursor on one of
    them its documentation and its range are the answer, with the cursor on none of them there is no answer. *)
Theorem C66_hover : forall {F} (parse_f64 : str -> option F) (cfg : hover_cfg) (chk : bool) (enc : option wenc) (src : str) (i : line_index) (s : lschema F),
  text src -> li_new src = Some i -> lschema_parse parse_f64 src = Some s ->
  exists places : list str,
    let docs := combine places (schema_docs cfg chk (er_schema s)) in
    Forall2 (fun a d => exists b, src = a ++ fst d ++ b) places (schema_docs cfg chk (er_schema s))
    /\ (forall toks, semantic_tokens chk (Index i enc) s = LOk toks ->
        declared_ranges (decode_tokens (Pos 0 0) toks) = map (fun d => (end_of enc (fst d), end_of enc (fst d ++ fst (snd d)))) docs)
    /\ forall pre suf, src = pre ++ suf ->
       (forall a name doc, In (a, (name, doc)) docs -> under pre a name ->
          hover cfg chk (Index i enc) s (end_of enc pre) = LOk (Some (doc, (end_of enc a, end_of enc (a ++ name)))))
       /\ ((forall a name doc, In (a, (name, doc)) docs -> ~ under pre a name) ->
           hover cfg chk (Index i enc) s (end_of enc pre) = LOk None).
Proof.
  intros F pf cfg chk enc src i s Ht Hi Hp. assert (Hix : index_of enc src (Index i enc)) by (exists i; auto).
  destruct (entries_places pf src s Ht Hp cfg chk) as [places Hpl]. exists places. cbv zeta.
  set (es := s_entries s cfg chk) in *.
  assert (Ed : schema_docs cfg chk (er_schema s) = map forget es).
  { unfold schema_docs, es, s_entries. cbn [er_schema ps_defs]. rewrite flat_map_map. symmetry. apply map_flat_map. intros d _. apply def_entries_docs. }
  rewrite Ed. split; [|split].
  - clear - Hpl. induction Hpl as [|e a es l H _ IH]; [constructor|]. cbn [map]. constructor; [|exact IH]. exact (proj1 H).
  - intros toks Hk. destruct (doc_tokens pf enc src _ s Ht Hix Hp chk) as (l & ts & E2 & <- & _ & R2). assert (l = toks) as -> by congruence.
    pose proof (declared_entries pf _ s cfg chk _ R2) as R. fold es in R. refine (has_range_inj _ _ _ _ R _).
    clear - Hpl Hix. induction Hpl as [|e a es l H _ IH]; [constructor|]. cbn [map combine fst snd]. constructor; [|exact IH]. exact (place_range enc src _ Hix e a H).
  - intros pre suf Hs. rewrite (hover_find enc src _ s Hix cfg chk pre suf Hs). fold es.
    assert (Hin : forall a name doc, In (a, (name, doc)) (combine places (map forget es)) -> exists e, In e es /\ at_place src e a /\ forget e = (name, doc)).
    { clear - Hpl. induction Hpl as [|e a es l H _ IH]; intros a' name doc Hi; [destruct Hi|]. cbn [map combine] in Hi. destruct Hi as [E|Hi].
      - exists e. injection E as <- E1 E2. split; [left; reflexivity|split; [exact H|unfold forget; congruence]].
      - destruct (IH _ _ _ Hi) as (e' & H1 & H2). exists e'. split; [right; exact H1|exact H2]. }
    assert (Hall : forall e, In e es -> exists a, at_place src e a /\ In (a, forget e) (combine places (map forget es))).
    { clear - Hpl. induction Hpl as [|e a es l H _ IH]; intros e' He; [destruct He|]. cbn [map combine]. destruct He as [<-|He]; [exists a; split; [exact H|left; reflexivity]|].
      destruct (IH e' He) as (a' & H1 & H2). exists a'. split; [exact H1|right; exact H2]. }
    split.
    + intros a name doc Hd Hu. destruct (Hin a name doc Hd) as (e & He & Ha & Ef). unfold forget in Ef. injection Ef as En Et. subst name doc.
      rewrite (find_some (bytes_len pre) es e (entries_turn pf src s Ht Hp cfg chk) He (proj2 (contains_under src e a pre suf Ha Hs) Hu)).
      rewrite (place_range enc src _ Hix e a Ha). reflexivity.
    + intros Hno. rewrite find_none; [reflexivity|]. intros e He. destruct (Hall e He) as (a & Ha & Hd).
      destruct (contains (ln_loc (fst e)) (bytes_len pre)) eqn:E; [|reflexivity]. exfalso. apply (Hno _ _ _ Hd). apply (contains_under src e a pre suf Ha Hs). exact E.
Qed.
Print Assumptions C66_hover.

(** * Examples *)

(** Comments, a module with an emoji in a comment, a struct with fields, an enum, a constant and an import. *)
Definition ex_src : str :=
  tx "use a::B;" ++ [10] ++
  tx "mod m {" ++ [10] ++
  tx "  /// Doc " ++ [128512] ++ [10] ++
  tx "  struct S<T> { a: vec<T> @1, bc: [u8; 4] @2 }" ++ [10] ++
  tx "}" ++ [10] ++
  tx "enum E { X @1, Y( u8 @1) @2 }" ++ [10] ++
  tx "const C: u32 = 5;".
Definition ex_pf (_ : str) : option N := None.
Definition ex_lschema : option (lschema N) := lschema_parse ex_pf ex_src.
Definition show_loc (l : loc) : str := firstn (N.to_nat (snd l - fst l)) (skipn (N.to_nat (fst l)) (flat_map (fun c => repeat c (N.to_nat (len8 c))) ex_src)).

(** The names and the source at their locations. *)
Example C63_ex :
  option_map (fun s => map (fun w => (ln_text (lw_name w), show_loc (ln_loc (lw_name w)))) (schema_names s)) ex_lschema
  = Some (map (fun n => (n, n)) [tx "a"; tx "B"; tx "m"; tx "S"; tx "T"; tx "a"; tx "T"; tx "bc"; tx "E"; tx "X"; tx "Y"; tx "C"]).
Proof. vm_compute. reflexivity. Qed.
Definition ex_with {A} (f : lschema N -> index -> A) : option A :=
  match ex_lschema, li_new ex_src with Some s, Some i => Some (f s (Index i (Some Utf16))) | _, _ => None end.
Definition ex_show {A} (r : lres A) : option A := match r with LOk a => Some a | _ => None end.

(** The first tokens: [use], [a], [::], [B], [mod], [m]. *)
Example C64_ex :
  ex_with (fun s ix => option_map (fun l => firstn 6 (map (fun t => (p_line (tk_start t), p_char (tk_start t), p_char (tk_end t), tk_type t)) (decode_tokens (Pos 0 0) l)))
                                  (ex_show (semantic_tokens true ix s)))
  = Some (Some [(0, 0, 3, token_type_pos TkKeyword); (0, 4, 5, token_type_pos TkNamespace); (0, 5, 7, token_type_pos TkDoubleColon); (0, 7, 8, token_type_pos TkType);
                (1, 0, 3, token_type_pos TkKeyword); (1, 4, 5, token_type_pos TkNamespace)]).
Proof. vm_compute. reflexivity. Qed.

(** The outline: the import, the module with the struct and its fields, the enum, its variants and the field of one of them,
    the constant.  The range of the unnamed field [( u8 @1)] starts right behind the parenthesis (it covers the blank). *)
Example C65_ex :
  ex_with (fun s ix => option_map (fun l => map (fun e => (fst e, p_line (fst (snd e)), p_char (fst (snd e)), p_char (snd (snd e)))) (flat_map listed l)) (ex_show (document_symbols ix s)))
  = Some (Some [(tx "a::B", 0, 4, 8); (tx "m", 1, 4, 5); (tx "S", 3, 9, 10); (tx "a", 3, 16, 17); (tx "bc", 3, 30, 32);
                (tx "E", 5, 5, 6); (tx "X", 5, 9, 10); (tx "Y", 5, 15, 16); (tx "0", 5, 17, 23); (tx "C", 6, 6, 7)]).
Proof. vm_compute. reflexivity. Qed.

(** Hovering over the second char of [bc]; over [S]; and behind [S], where there is no answer. *)
Example C66_ex :
  ex_with (fun s ix => let h p := hover (HoverCfg true true) true ix s p in (h (Pos 3 31), option_map (fun o => option_map fst o) (ex_show (h (Pos 3 9))), h (Pos 3 10)))
  = Some (LOk (Some (HoverText [] (HWireSize (wire_size (simplify_type (PArray (PPrim PrU8) 4)))), (Pos 3 30, Pos 3 32))),
          Some (Some (HoverText [tx "Doc " ++ [128512]] (HNextId (Some 3)))),
          LOk None).
Proof. vm_compute. reflexivity. Qed.
