(** The outline of a document and hovering. *)
From Verif Require Import Base Syntax Parser ParserSpec Printer Compiler Meta Lsp LspSpec LspProofs LspServer SpanParser LspVisit TokenSpec NameSpec OutlineSpec SpanProofs SpanTypes SpanDefs SpanSchema SpanLsp SpanPlaced.
Require Coq.Strings.String.
Import Coq.Strings.String.StringSyntax.
Local Open Scope N_scope.

(** * Symbols *)
Section SymInd.
Context {R : Type}.
Variable P : symbol R -> Prop.
Hypothesis H : forall n k r cs, (forall c, In c cs -> P c) -> P (Symbol n k r cs).
Fixpoint symbol_ind2 (s : symbol R) : P s :=
  match s with
  | Symbol n k r cs => H n k r cs
      ((fix all (l : list (symbol R)) : forall c, In c l -> P c :=
          match l return forall c, In c l -> P c with
          | [] => fun c H => match H with end
          | x :: l' => fun c H => match H with
                                  | or_introl E => match E in _ = y return P y with eq_refl => symbol_ind2 x end
                                  | or_intror H' => all l' c H'
                                  end
          end) cs)
  end.
End SymInd.
Section SMap.
Context {A B : Type} (f : A -> B).
Fixpoint smap (s : symbol A) : symbol B := let 'Symbol n k r cs := s in Symbol n k (f r) (map smap cs).
Lemma listed_smap s : listed (smap s) = map (fun e => (fst e, f (snd e))) (listed s).
Proof.
  induction s as [n k r cs IH] using symbol_ind2. cbn [smap listed map fst snd]. f_equal. induction cs as [|c cs IHc]; [reflexivity|]. cbn [map flat_map]. rewrite map_app, IH by (left; reflexivity).
  rewrite IHc by (intros c' H; apply IH; right; exact H). reflexivity.
Qed.
Lemma listed_smap_all l : flat_map listed (map smap l) = map (fun e => (fst e, f (snd e))) (flat_map listed l).
Proof. induction l as [|s l IH]; [reflexivity|]. cbn [map flat_map]. rewrite map_app, listed_smap, IH. reflexivity. Qed.
End SMap.

(** The outline with both what a range covers and the location it is made of. *)
Definition lsym_nfield (f : lnfield) : symbol (covers * loc) := Symbol (ln_text (lnf_name f)) SkProperty (CName, ln_loc (lnf_name f)) [].
Definition lsym_fields (fs : lfields) : list (symbol (covers * loc)) :=
  match fs with
  | LFNamed _ _ l => map (fun e => lsym_nfield (fst e)) (p_values l)
  | LFUnnamed _ _ l => map (fun '(k, e) => Symbol (dec_str (N.of_nat k)) SkProperty (CField (er_ufield (fst e)), luf_loc (fst e)) []) (combine (seq 0 (length (p_values l))) (p_values l))
  | LFUnit => []
  end.
Definition lsym_variant (v : lvariant) : symbol (covers * loc) := Symbol (ln_text (lv_name v)) SkEnumMember (CName, ln_loc (lv_name v)) (lsym_fields (lv_fields v)).
Fixpoint lsym {F} (d : ldef F) : symbol (covers * loc) :=
  match d with
  | LModule _ _ n _ _ ds => Symbol (ln_text n) SkModule (CName, ln_loc n) (map lsym ds)
  | LStruct _ _ _ n _ fs => Symbol (ln_text n) SkStruct (CName, ln_loc n) (lsym_fields fs)
  | LEnum _ _ _ n _ _ _ vs => Symbol (ln_text n) SkEnum (CName, ln_loc n) (map (fun e => lsym_variant (fst e)) (p_values vs))
  | LAlias _ _ n _ _ _ _ => Symbol (ln_text n) SkVariable (CName, ln_loc n) []
  | LConst _ _ n _ _ _ _ _ _ => Symbol (ln_text n) SkConstant (CName, ln_loc n) []
  | LImport _ segs el _ => Symbol (path_text segs el) SkFile (CPath, path_loc segs el) []
  end.
Lemma p_values_map {A B} (f : A -> B) p : p_values (p_map f p) = map f (p_values p).
Proof. destruct p as [l x b]. unfold p_values. cbn [p_map p_init p_last]. rewrite map_app. reflexivity. Qed.
Lemma combine_map_r {A B C} (f : B -> C) (l : list A) (r : list B) : combine l (map f r) = map (fun '(a, b) => (a, f b)) (combine l r).
Proof. revert r. induction l as [|a l IH]; intros [|b r]; try reflexivity. cbn. rewrite IH. reflexivity. Qed.
Lemma p_len_values {A} (p : punct A) : p_len p = length (p_values p).
Proof. destruct p as [l x b]. unfold p_len, p_values. cbn. rewrite app_length. reflexivity. Qed.
Lemma fields_sym_l fs : fields_sym fs = map (smap snd) (lsym_fields fs).
Proof.
  destruct fs as [o c l|o c l|]; cbn [fields_sym lsym_fields]; [rewrite map_map; reflexivity| |reflexivity].
  rewrite p_len_values, combine_map_r, !map_map. apply map_ext. intros [k e]. reflexivity.
Qed.
Lemma fields_sym_o fs : fields_outline (er_fields fs) = map (smap fst) (lsym_fields fs).
Proof.
  destruct fs as [o c l|o c l|]; cbn [fields_outline er_fields lsym_fields]; [rewrite p_values_map, !map_map; reflexivity| |reflexivity].
  rewrite p_values_map, map_length, combine_map_r, !map_map. apply map_ext. intros [k e]. reflexivity.
Qed.
Lemma last_default {A} (l : list A) x d : last (l ++ [x]) d = x.
Proof. induction l as [|a l IH]; [reflexivity|]. cbn [app]. destruct (l ++ [x]) eqn:E; [destruct l; discriminate|exact IH]. Qed.
Lemma fold_last (l : list lname) : forall v, fold_left (fun _ n => snd (ln_loc n)) l v = match l with [] => v | x :: _ => snd (ln_loc (last l x)) end.
Proof.
  induction l as [|x l IH]; intros v; [reflexivity|]. cbn [fold_left]. rewrite IH. destruct l as [|y l]; [reflexivity|].
  change (last (x :: y :: l) x) with (last (y :: l) x). rewrite (last_irrel_ y l y x). reflexivity.
Qed.
Lemma import_sym_l segs el : segs <> [] -> import_sym segs el = Symbol (path_text segs el) SkFile (path_loc segs el) [].
Proof.
  intros Hs. destruct segs as [|s l]; [contradiction|]. unfold import_sym, path_text, path_loc. f_equal.
  - f_equal. rewrite map_app, concat_app. f_equal. destruct el as [[d n]|]; [|reflexivity]. cbn. rewrite app_nil_r. reflexivity.
  - f_equal. destruct el as [[d n]|].
    + rewrite fold_last. destruct (l ++ [n]) eqn:E; [destruct l; discriminate|]. rewrite <- E, last_default. reflexivity.
    + rewrite app_nil_r, fold_last. destruct l as [|y l]; [reflexivity|]. change (last (s :: y :: l) s) with (last (y :: l) s). rewrite (last_irrel_ y l y s). reflexivity.
Qed.
Lemma joined_path segs el : joined (map ln_text segs) (option_map (fun e => ln_text (snd e)) el) = match segs with [] => match el with Some (_, n) => ln_text n | None => [] end | _ => path_text segs el end.
Proof.
  unfold joined, path_text. destruct segs as [|s l]; cbn [map app].
  - destruct el as [[d n]|]; cbn; [apply app_nil_r|reflexivity].
  - f_equal. rewrite map_app, concat_app, map_map. f_equal. destruct el as [[d n]|]; cbn; [rewrite app_nil_r|]; reflexivity.
Qed.
(** Imports have segments. *)
Fixpoint has_segs {F} (d : ldef F) : Prop :=
  match d with
  | LModule _ _ _ _ _ ds => fold_right (fun d P => has_segs d /\ P) True ds
  | LImport _ segs _ _ => segs <> []
  | _ => True
  end.
Lemma def_sym_l {F} (d : ldef F) : has_segs d -> def_sym d = smap snd (lsym d).
Proof.
  induction d as [c kw n o e ds IH|c a kw n g fs|c a kw n g o e vs|c kw n g e t m|c kw n k t e v vl m|kw segs el m] using ldef_ind2; intros Hs; cbn [def_sym lsym smap snd]; try reflexivity.
  - f_equal. rewrite map_map. cbn [has_segs] in Hs. induction ds as [|d ds IHds]; [reflexivity|]. cbn [map fold_right] in *. destruct Hs as [H1 H2].
    rewrite IH by (try (left; reflexivity); exact H1). rewrite IHds; [reflexivity| |exact H2]. intros d' Hd. apply IH. right. exact Hd.
  - f_equal. apply fields_sym_l.
  - f_equal. rewrite map_map. apply map_ext. intros [v x]. cbn [fst]. unfold variant_sym, lsym_variant. cbn [smap snd]. f_equal. apply fields_sym_l.
  - apply import_sym_l. exact Hs.
Qed.
Lemma def_sym_o {F} (d : ldef F) : has_segs d -> def_outline (er_def d) = smap fst (lsym d).
Proof.
  induction d as [c kw n o e ds IH|c a kw n g fs|c a kw n g o e vs|c kw n g e t m|c kw n k t e v vl m|kw segs el m] using ldef_ind2; intros Hs; cbn [er_def def_outline lsym smap fst]; try reflexivity.
  - f_equal. rewrite !map_map. cbn [has_segs] in Hs. induction ds as [|d ds IHds]; [reflexivity|]. cbn [map fold_right] in *. destruct Hs as [H1 H2].
    rewrite IH by (try (left; reflexivity); exact H1). rewrite IHds; [reflexivity| |exact H2]. intros d' Hd. apply IH. right. exact Hd.
  - f_equal. apply fields_sym_o.
  - f_equal. rewrite p_values_map, !map_map. apply map_ext. intros [v x]. cbn [fst]. unfold variant_outline, lsym_variant, er_variant. cbn [pv_name pv_fields smap fst]. f_equal. apply fields_sym_o.
  - f_equal. cbn in Hs. rewrite joined_path. destruct segs; [contradiction|reflexivity].
Qed.

(** Placing a tree whose locations are all good. *)
Lemma collect_rel {A B C D} (f : A -> lres B) (g : D -> A) (o : D -> C) (R : C -> B -> Prop) xs :
  (forall x, In x xs -> exists b, f (g x) = LOk b /\ R (o x) b) -> exists l, collect f (map g xs) = LOk l /\ Forall2 R (map o xs) l.
Proof.
  induction xs as [|x xs IH]; intros H; [exists []; split; [reflexivity|constructor]|]. destruct (H x (or_introl eq_refl)) as (b & Eb & Rb).
  destruct IH as (l & El & Rl); [intros y Hy; apply H; right; exact Hy|]. exists (b :: l). cbn [map collect]. rewrite Eb. cbn [lbind]. rewrite El. cbn [lbind]. split; [reflexivity|constructor; assumption].
Qed.
Section Place.
Variables (enc : option wenc) (src : str) (ix : index).
Definition entry_ok (e : str * (covers * loc)) : Prop := exists r, get_range ix (snd (snd e)) = LOk r /\ covered enc src (fst (snd e)) (fst e) r.
Definition ranged (e : str * (covers * loc)) (x : str * (Lsp.pos * Lsp.pos)) : Prop := get_range ix (snd (snd e)) = LOk (snd x).
Definition shown (s : symbol (covers * loc)) (s' : symbol (Lsp.pos * Lsp.pos)) : Prop := shows enc src (smap fst s) s' /\ Forall2 ranged (listed s) (listed s').
Lemma shown_list cs cs' : Forall2 shown cs cs' -> Forall2 (shows enc src) (map (smap fst) cs) cs' /\ Forall2 ranged (flat_map listed cs) (flat_map listed cs').
Proof.
  intros H. induction H as [|c c' cs cs' [H1 H2] H [IH1 IH2]]; [split; constructor|]. split; [constructor; assumption|]. cbn [flat_map]. apply Forall2_app; assumption.
Qed.
Lemma place_ok s : Forall entry_ok (listed s) -> exists s', place ix (smap snd s) = LOk s' /\ shown s s'.
Proof.
  induction s as [n k [q l] cs IH] using symbol_ind2. cbn [listed]. intros H. inversion H as [|x y (r & Er & Cr) Hcs]; subst. cbn [fst snd] in Er, Cr.
  destruct (collect_rel (place ix) (smap snd) (fun c => c) shown cs) as (l' & El & Rl).
  { intros c Hc. apply IH; [exact Hc|]. rewrite Forall_forall in *. intros e He. apply Hcs. apply in_flat_map. eauto. }
  rewrite map_id in Rl. apply shown_list in Rl as [R1 R2]. exists (Symbol n k r l'). cbn [smap place snd]. rewrite Er. cbn [lbind]. rewrite El. cbn [lbind]. split; [reflexivity|].
  split; [cbn [smap fst]; constructor; assumption|]. cbn [listed]. constructor; [exact Er|exact R2].
Qed.
End Place.

(** * The names one can hover over *)
Section Entries.
Variables (cfg : hover_cfg) (chk : bool).
Definition entry := (lname * hover_text)%type.
Definition fields_entries (fs : lfields) : list entry :=
  match fs with
  | LFNamed _ _ l => map (fun e => (lnf_name (fst e), HoverText (er_comment (lnf_comment (fst e))) (type_info cfg (er_ty (lnf_ty (fst e)))))) (p_values l)
  | _ => []
  end.
Definition variant_entries (v : lvariant) : list entry :=
  (lv_name v, HoverText (er_comment (lv_comment v)) (fields_info cfg chk (er_fields (lv_fields v)))) :: fields_entries (lv_fields v).
Fixpoint def_entries {F} (d : ldef F) : list entry :=
  match d with
  | LModule c _ n _ _ ds => (n, HoverText (er_comment c) HNone) :: flat_map def_entries ds
  | LStruct c _ _ n _ fs => (n, HoverText (er_comment c) (fields_info cfg chk (er_fields fs))) :: fields_entries fs
  | LEnum c _ _ n _ _ _ vs =>
      (n, HoverText (er_comment c) (variants_info cfg chk (p_values (p_map (fun e => er_variant (fst e)) vs)))) :: flat_map (fun e => variant_entries (fst e)) (p_values vs)
  | LAlias c _ n _ _ _ _ => [(n, HoverText (er_comment c) HNone)]
  | LConst c _ n _ _ _ _ _ _ => [(n, HoverText (er_comment c) HNone)]
  | LImport _ _ _ _ => []
  end.
Definition forget (e : entry) : str * hover_text := (ln_text (fst e), snd e).
Lemma fields_entries_docs fs : map forget (fields_entries fs) = fields_docs cfg (er_fields fs).
Proof. destruct fs as [o c l|o c l|]; try reflexivity. cbn [fields_entries er_fields fields_docs]. rewrite p_values_map, !map_map. reflexivity. Qed.
Lemma variant_entries_docs v : map forget (variant_entries v) = variant_docs cfg chk (er_variant v).
Proof. unfold variant_entries, variant_docs, er_variant. cbn [map pv_name pv_comment pv_fields]. rewrite fields_entries_docs. reflexivity. Qed.
Lemma map_flat_map {A B C} (f : A -> list B) (g : B -> C) (h : A -> list C) l : (forall a, In a l -> map g (f a) = h a) -> map g (flat_map f l) = flat_map h l.
Proof.
  intros H. induction l as [|a l IH]; [reflexivity|]. cbn [flat_map]. rewrite map_app, (H a (or_introl eq_refl)), IH; [reflexivity|]. intros b Hb. apply H. right. exact Hb.
Qed.
Lemma flat_map_map {A B C} (f : A -> B) (g : B -> list C) l : flat_map g (map f l) = flat_map (fun a => g (f a)) l.
Proof. induction l as [|a l IH]; [reflexivity|]. cbn. rewrite IH. reflexivity. Qed.
Lemma def_entries_docs {F} (d : ldef F) : map forget (def_entries d) = def_docs cfg chk (er_def d).
Proof.
  induction d as [c kw n o e ds IH|c a kw n g fs|c a kw n g o e vs|c kw n g e t m|c kw n k t e v vl m|kw segs el m] using ldef_ind2; cbn [def_entries er_def def_docs map]; try reflexivity.
  - f_equal. rewrite flat_map_map. apply map_flat_map. exact IH.
  - f_equal. apply fields_entries_docs.
  - f_equal. rewrite p_values_map, flat_map_map. apply map_flat_map. intros [v x] _. apply variant_entries_docs.
Qed.

(** Searching them is what the visitor does. *)
Definition hit (p : N) (e : entry) : option (hover_text * loc) := if contains (ln_loc (fst e)) p then Some (snd e, ln_loc (fst e)) else None.
Lemma find_map_app {A B} (f : A -> option B) l l' : find_map f (l ++ l') = match find_map f l with Some b => Some b | None => find_map f l' end.
Proof. induction l as [|a l IH]; [reflexivity|]. cbn [app find_map]. destruct (f a); [reflexivity|exact IH]. Qed.
Lemma find_map_flat {A B C} (f : A -> option C) (g : B -> option C) (h : A -> list B) l : (forall a, In a l -> f a = find_map g (h a)) -> find_map f l = find_map g (flat_map h l).
Proof.
  intros H. induction l as [|a l IH]; [reflexivity|]. cbn [find_map flat_map]. rewrite find_map_app, (H a (or_introl eq_refl)). destruct (find_map g (h a)); [reflexivity|].
  apply IH. intros b Hb. apply H. right. exact Hb.
Qed.
Lemma find_map_map {A B C} (f : A -> B) (g : B -> option C) l : find_map g (map f l) = find_map (fun a => g (f a)) l.
Proof. induction l as [|a l IH]; [reflexivity|]. cbn. rewrite IH. reflexivity. Qed.
Lemma fields_hover_entries fs p : fields_hover cfg fs p = find_map (hit p) (fields_entries fs).
Proof. destruct fs as [o c l|o c l|]; try reflexivity. cbn [fields_hover fields_entries]. rewrite find_map_map. reflexivity. Qed.
Lemma variant_hover_entries v p : variant_hover cfg chk v p = find_map (hit p) (variant_entries v).
Proof. unfold variant_hover, variant_entries. cbn [find_map]. unfold hit at 1. cbn [fst snd]. destruct (contains (ln_loc (lv_name v)) p); [reflexivity|]. apply fields_hover_entries. Qed.
Lemma def_hover_entries {F} (d : ldef F) p : def_hover cfg chk d p = find_map (hit p) (def_entries d).
Proof.
  induction d as [c kw n o e ds IH|c a kw n g fs|c a kw n g o e vs|c kw n g e t m|c kw n k t e v vl m|kw segs el m] using ldef_ind2; cbn [def_hover def_entries find_map]; try reflexivity;
    try (unfold hit at 1; cbn [fst snd]; destruct (contains (ln_loc n) p); [reflexivity|]).
  - apply find_map_flat. exact IH.
  - apply fields_hover_entries.
  - apply find_map_flat. intros [v x] _. apply variant_hover_entries.
  - reflexivity.
  - reflexivity.
Qed.

(** They are the declared names other than type parameters. *)
Definition declaring_word (w : lword) : bool := N.testbit (token_modifier_bitset (lw_mods w)) 0 && existsb (fun k => token_type_pos (lw_kind w) =? token_type_pos k) declaring_kinds.
Definition dw (l : list lword) : list lname := map lw_name (filter declaring_word l).
Lemma dw_app a b : dw (a ++ b) = dw a ++ dw b.
Proof. unfold dw. rewrite filter_app, map_app. reflexivity. Qed.
Lemma dw_flat {A} (f : A -> list lword) l : dw (flat_map f l) = flat_map (fun a => dw (f a)) l.
Proof. induction l as [|a l IH]; [reflexivity|]. cbn [flat_map]. rewrite dw_app, IH. reflexivity. Qed.
Lemma dw_mentions {A} k (f : A -> lname) l : dw (map (fun e => mention k (f e)) l) = [].
Proof. induction l as [|a l IH]; [reflexivity|]. cbn [map]. unfold dw, declaring_word in *. cbn [filter mention lw_mods]. exact IH. Qed.
Lemma dw_types {A} (f : A -> list lword) l : (forall a, In a l -> dw (f a) = []) -> dw (flat_map f l) = [].
Proof. intros H. rewrite dw_flat. induction l as [|a l IH]; [reflexivity|]. cbn [flat_map]. rewrite (H a (or_introl eq_refl)). apply IH. intros b Hb. apply H. right. exact Hb. Qed.
Lemma type_dw t : dw (type_names t) = [].
Proof.
  induction t as [s p|s k kw o c t IH|s kw o c k m v IHk IHv|s o c l x b Hl Hx|s o c t m n IH|s path n|s path n [o c] l x b Hl Hx] using lty_ind2; cbn [type_names]; try assumption; try reflexivity.
  - rewrite dw_app, IHk, IHv. reflexivity.
  - rewrite dw_app, Hx, dw_types; auto.
  - rewrite dw_app, (dw_mentions TkNamespace fst). reflexivity.
  - rewrite dw_app, (dw_mentions TkNamespace fst). cbn [app].
    match goal with |- dw (mention TkType n :: ?r) = [] => change (dw r = []) end. rewrite dw_app, Hx, dw_types; auto.
Qed.
Lemma generics_dw g : dw (generics_names g) = [].
Proof. destruct g as [[l x b]|]; [|reflexivity]. cbn [generics_names punct_names]. rewrite dw_app, dw_types; [reflexivity|]. reflexivity. Qed.
Lemma punct_dw {A} (f : A -> list lword) (p : lpunct A) : dw (punct_names f p) = flat_map (fun e => dw (f (fst e))) (p_values p).
Proof. destruct p as [l x b]. unfold p_values. cbn [punct_names p_init p_last]. rewrite dw_app, dw_flat, flat_map_app. cbn [flat_map]. rewrite app_nil_r. reflexivity. Qed.
Lemma fields_dw fs : map fst (fields_entries fs) = dw (fields_names fs).
Proof.
  destruct fs as [o c l|o c l|]; cbn [fields_entries fields_names]; try reflexivity; rewrite punct_dw.
  - induction (p_values l) as [|e l' IH]; [reflexivity|]. cbn [map flat_map fst]. rewrite IH. unfold nfield_names.
    match goal with |- context [dw (declares TkProperty ?x :: ?r)] => change (dw (declares TkProperty x :: r)) with (x :: dw r) end. rewrite type_dw. reflexivity.
  - induction (p_values l) as [|e l' IH]; [reflexivity|]. cbn [flat_map]. rewrite <- IH. unfold ufield_names. rewrite type_dw. reflexivity.
Qed.
Lemma def_dw {F} (d : ldef F) : map fst (def_entries d) = dw (def_names d).
Proof.
  induction d as [c kw n o e ds IH|c a kw n g fs|c a kw n g o e vs|c kw n g e t m|c kw n k t e v vl m|kw segs el m] using ldef_ind2; cbn [def_entries def_names map fst].
  - match goal with |- _ = dw (?w :: ?r) => change (dw (w :: r)) with (n :: dw r) end. f_equal. rewrite dw_flat. apply map_flat_map. exact IH.
  - match goal with |- _ = dw (?w :: ?r) => change (dw (w :: r)) with (n :: dw r) end. f_equal. rewrite dw_app, generics_dw. apply fields_dw.
  - match goal with |- _ = dw (?w :: ?r) => change (dw (w :: r)) with (n :: dw r) end. f_equal. rewrite dw_app, generics_dw, punct_dw. apply map_flat_map. intros [v x] _. cbn [fst].
    unfold variant_entries, variant_names. match goal with |- _ = dw (?w :: ?r) => change (dw (w :: r)) with (lv_name v :: dw r) end. cbn [map fst]. f_equal. apply fields_dw.
  - match goal with |- _ = dw (?w :: ?r) => change (dw (w :: r)) with (n :: dw r) end. f_equal. rewrite dw_app, generics_dw, type_dw. reflexivity.
  - match goal with |- _ = dw (?w :: ?r) => change (dw (w :: r)) with (n :: dw r) end. f_equal. rewrite type_dw. reflexivity.
  - rewrite dw_app, (dw_mentions TkNamespace (fun x => x)). destruct el as [[d n]|]; reflexivity.
Qed.

(** And the entries of the outline that cover a name. *)
Definition nm (l : list (str * (covers * loc))) : list loc := map (fun e => snd (snd e)) (filter (fun e => is_name (fst (snd e))) l).
Lemma nm_flat {A} (f : A -> list (str * (covers * loc))) l : nm (flat_map f l) = flat_map (fun a => nm (f a)) l.
Proof. induction l as [|a l IH]; [reflexivity|]. cbn [flat_map]. unfold nm in *. rewrite filter_app, map_app, IH. reflexivity. Qed.
Definition eloc (e : entry) : loc := ln_loc (fst e).
Lemma fields_nm fs : nm (flat_map listed (lsym_fields fs)) = map eloc (fields_entries fs).
Proof.
  rewrite nm_flat. destruct fs as [o c l|o c l|]; cbn [lsym_fields fields_entries]; [| |reflexivity]; rewrite flat_map_map.
  - rewrite map_map. induction (p_values l) as [|e l' IH]; [reflexivity|]. cbn [flat_map map]. rewrite IH. reflexivity.
  - induction (combine (seq 0 (length (p_values l))) (p_values l)) as [|[k e] l' IH]; [reflexivity|]. exact IH.
Qed.
Lemma def_nm {F} (d : ldef F) : nm (listed (lsym d)) = map eloc (def_entries d).
Proof.
  induction d as [c kw n o e ds IH|c a kw n g fs|c a kw n g o e vs|c kw n g e t m|c kw n k t e v vl m|kw segs el m] using ldef_ind2; cbn [lsym listed def_entries map]; try reflexivity;
    (match goal with |- nm (?w :: ?r) = _ => change (nm (w :: r)) with (ln_loc n :: nm r) end; f_equal).
  - rewrite flat_map_map, nm_flat. symmetry. apply map_flat_map. intros d Hd. symmetry. apply IH. exact Hd.
  - apply fields_nm.
  - rewrite flat_map_map, nm_flat. symmetry. apply map_flat_map. intros [v x] _. cbn [fst lsym_variant listed]. unfold variant_entries. cbn [map].
    match goal with |- _ = nm (?w :: ?r) => change (nm (w :: r)) with (ln_loc (lv_name v) :: nm r) end. f_equal. symmetry. apply fields_nm.
Qed.
End Entries.

(** * A parsed document *)
Section Doc.
Context {F : Type}.
Variables (pf : str -> option F) (enc : option wenc) (src : str) (ix : index) (s : lschema F).
Hypothesis Htext : text src.
Hypothesis Hix : index_of enc src ix.
Hypothesis Hparse : lschema_parse pf src = Some s.
Definition wat (w : lword) : Prop := at_loc src (wloc w) (wtext w).

Lemma doc_tokd : tokd (bytes_len src) src [] (schema_toks s) (schema_items pf (er_schema s)).
Proof. exact (proj2 (lschema_ok pf src Htext) s Hparse). Qed.
Lemma doc_names : Forall (fun w => wat w /\ wtext w <> []) (schema_names s) /\ in_turn (map wloc (schema_names s)).
Proof.
  destruct (tokd_names src src [] _ _ _ doc_tokd (named_schema pf s) [] eq_refl) as [A B]. split; [|exact B].
  eapply Forall_impl; [|exact A]. cbn beta. intros w (H1 & H2 & _). auto.
Qed.
Lemma doc_nodes : Forall (node_ok src) (schema_nodes s).
Proof. exact (nodes_ok src pf s Htext Hparse). Qed.

Lemma name_entry n k : at_loc src (ln_loc n) (ln_text n) -> entry_ok enc src ix (ln_text n, (CName, ln_loc n)) /\ k = k :> nat.
Proof. intros H. split; [|reflexivity]. destruct (get_range_at enc src ix _ _ Hix H) as (pre & suf & E & El & Er). eexists. split; [exact Er|]. cbn. exists pre, suf. split; [exact E|reflexivity]. Qed.
Lemma entry_name n : at_loc src (ln_loc n) (ln_text n) -> entry_ok enc src ix (ln_text n, (CName, ln_loc n)).
Proof. intros H. exact (proj1 (name_entry n 0 H)). Qed.
Lemma in_punct_names {A} (f : A -> list lword) (p : lpunct A) e : In e (p_values p) -> forall w, In w (f (fst e)) -> In w (punct_names f p).
Proof.
  destruct p as [l x b]. unfold p_values. cbn [p_init p_last punct_names]. intros H w Hw. apply in_app_iff in H as [H|[<-|[]]]; apply in_app_iff; [left|right; exact Hw]. apply in_flat_map. eauto.
Qed.
Lemma fields_entry_ok fs : (forall w, In w (fields_names fs) -> wat w) -> (forall n, In n (fields_nodes fs) -> node_ok src n) -> Forall (entry_ok enc src ix) (flat_map listed (lsym_fields fs)).
Proof.
  intros Hw Hn. apply Forall_forall. intros x Hx. apply in_flat_map in Hx as (sy & Hs & Hx). destruct fs as [o c l|o c l|]; cbn [lsym_fields fields_names fields_nodes] in *; [| |contradiction].
  - apply in_map_iff in Hs as (e & <- & He). destruct Hx as [<-|[]]. apply entry_name. apply (Hw (declares TkProperty (lnf_name (fst e)))). apply (in_punct_names nfield_names l e He). left. reflexivity.
  - apply in_map_iff in Hs as ([k e] & <- & He). destruct Hx as [<-|[]]. apply in_combine_r in He.
    assert (H : node_ok src (NUnnamed (fst e))). { apply Hn. apply in_flat_map. exists e. split; [exact He|left; reflexivity]. }
    destruct H as (pre & t & suf & E & El & Ep). assert (A : at_loc src (luf_loc (fst e)) t) by (exists pre, suf; auto).
    exists (end_of enc pre, end_of enc (pre ++ t)). cbn [fst snd]. split; [|exists pre, t, suf; split; [split; [exact E|reflexivity]|exact Ep]].
    rewrite El. apply get_range_pos; [apply (get_position_ok enc pre (t ++ suf)); rewrite <- E; exact Hix|apply (get_position_ok enc (pre ++ t) suf); rewrite <- app_assoc, <- E; exact Hix].
Qed.
Lemma def_entry_ok (d : ldef F) : (forall w, In w (def_names d) -> wat w) -> (forall n, In n (def_nodes d) -> node_ok src n) -> Forall (entry_ok enc src ix) (listed (lsym d)) /\ has_segs d.
Proof.
  induction d as [c kw n o e ds IH|c a kw n g fs|c a kw n g o e vs|c kw n g e t m|c kw n k t e v vl m|kw segs el m] using ldef_ind2; intros Hw Hn; cbn [lsym listed has_segs def_names def_nodes] in *.
  - split.
    + constructor; [apply entry_name; apply (Hw (declares TkNamespace n)); left; reflexivity|]. apply Forall_forall. intros x Hx. apply in_flat_map in Hx as (sy & Hs & Hx).
      apply in_map_iff in Hs as (d & <- & Hd). specialize (IH d Hd). destruct IH as [H _].
      * intros w H. apply Hw. right. apply in_flat_map. eauto.
      * intros nd H. apply Hn. apply in_app_iff. right. apply in_flat_map. eauto.
      * rewrite Forall_forall in H. exact (H x Hx).
    + assert (G : forall d, In d ds -> has_segs d).
      { intros d Hd. apply (IH d Hd); [intros w H; apply Hw; right; apply in_flat_map; eauto|intros nd H; apply Hn, in_app_iff; right; apply in_flat_map; eauto]. }
      clear - G. induction ds as [|d ds IH]; [exact I|]. cbn [fold_right]. split; [apply G; left; reflexivity|apply IH; intros d' H; apply G; right; exact H].
  - split; [|exact I]. constructor; [apply entry_name; apply (Hw (declares TkStruct n)); left; reflexivity|]. apply fields_entry_ok.
    + intros w H. apply Hw. right. apply in_app_iff. right. exact H.
    + intros nd H. apply Hn, in_app_iff. right. exact H.
  - split; [|exact I]. constructor; [apply entry_name; apply (Hw (declares TkEnum n)); left; reflexivity|]. apply Forall_forall. intros x Hx. apply in_flat_map in Hx as (sy & Hs & Hx).
    apply in_map_iff in Hs as (v & <- & Hv). cbn [lsym_variant listed] in Hx.
    assert (Hv' : forall w, In w (variant_names (fst v)) -> wat w). { intros w H. apply Hw. right. apply in_app_iff. right. exact (in_punct_names variant_names vs v Hv w H). }
    destruct Hx as [<-|Hx]; [apply entry_name; apply (Hv' (declares TkEnumMember (lv_name (fst v)))); left; reflexivity|].
    assert (H : Forall (entry_ok enc src ix) (flat_map listed (lsym_fields (lv_fields (fst v))))).
    { apply fields_entry_ok; [intros w H; apply Hv'; right; exact H|]. intros nd H. apply Hn, in_app_iff. right. apply in_flat_map. exists v. split; [exact Hv|].
      unfold variant_nodes. apply in_app_iff. right. right. apply in_app_iff. left. exact H. }
    rewrite Forall_forall in H. exact (H x Hx).
  - split; [|exact I]. constructor; [apply entry_name; apply (Hw (declares TkTypeAlias n)); left; reflexivity|constructor].
  - split; [|exact I]. constructor; [apply entry_name; apply (Hw (LWord n TkVariable [TmDeclaration; TmStatic; TmConstant])); left; reflexivity|constructor].
  - destruct (Hn _ (or_introl eq_refl)) as [Hs Ha]. split; [|exact Hs]. constructor; [|constructor].
    destruct (get_range_at enc src ix _ _ Hix Ha) as (pre & suf & E & El & Er). eexists. split; [exact Er|]. cbn. exists pre, suf. split; [exact E|reflexivity].
Qed.
Lemma doc_defs d : In d (ls_defs s) -> Forall (entry_ok enc src ix) (listed (lsym d)) /\ has_segs d.
Proof.
  intros Hd. apply def_entry_ok.
  - intros w Hw. destruct doc_names as [H _]. rewrite Forall_forall in H. apply H. unfold schema_names. apply in_flat_map. eauto.
  - intros n Hn. pose proof doc_nodes as H. rewrite Forall_forall in H. apply H. unfold schema_nodes. apply in_app_iff. right. apply in_flat_map. eauto.
Qed.
Lemma doc_symbols : exists syms, document_symbols ix s = LOk syms
  /\ Forall2 (shows enc src) (map def_outline (ps_defs (er_schema s))) syms
  /\ Forall2 (ranged ix) (flat_map listed (map lsym (ls_defs s))) (flat_map listed syms).
Proof.
  destruct (collect_rel (place ix) (fun d => smap snd (lsym d)) (fun d => lsym d) (shown enc src ix) (ls_defs s)) as (l & El & Rl).
  { intros d Hd. apply place_ok. exact (proj1 (doc_defs d Hd)). }
  exists l. split; [|].
  - unfold document_symbols. rewrite <- El. f_equal. apply map_ext_in. intros d Hd. apply def_sym_l. exact (proj2 (doc_defs d Hd)).
  - apply shown_list in Rl as [R1 R2]. split; [|exact R2]. cbn [er_schema ps_defs]. rewrite map_map in R1 |- *.
    rewrite (map_ext_in (fun d => def_outline (er_def d)) (fun d => smap fst (lsym d))); [exact R1|]. intros d Hd. apply def_sym_o. exact (proj2 (doc_defs d Hd)).
Qed.
Lemma doc_tokens chk : exists l ts, semantic_tokens chk ix s = LOk l /\ decode_tokens (Pos 0 0) l = ts
  /\ highlighted enc [] src (schema_items pf (er_schema s)) ts /\ Forall2 (renders ix) (schema_toks s) ts.
Proof.
  destruct (tokd_tokens enc chk src ix src _ _ Hix doc_tokd [] (Pos 0 0) eq_refl) as (ts & H1 & H2 & H3 & H4). { unfold pos_le. cbn. lia. }
  destruct (emit_decode chk ts (Pos 0 0) H2) as (l & El & Dl). exists l, ts. split; [|auto]. unfold semantic_tokens. rewrite H3. exact El.
Qed.
End Doc.
