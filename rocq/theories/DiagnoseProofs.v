(** Proofs about located validation. *)
From Verif Require Import Base Syntax Parser ParserSpec Printer Compiler CompilerSpec CompilerProofs CompilerMore Meta Lsp LspSpec LspProofs LspServer SpanParser LspVisit TokenSpec
  NameSpec OutlineSpec SpanProofs SpanTypes SpanDefs SpanSchema SpanLsp SpanPlaced OutlineProofs Diagnose DiagnoseSpec.
Local Open Scope N_scope.

(** * Without locations *)
Definition drop {A} (r : cres lverr A) : cres verr A := match r with COk a => COk a | CErr e => CErr (fst e) | CPanic => CPanic end.
Lemma drop_bind {A B} (m : cres lverr A) (f : A -> cres lverr B) : drop (cbind m f) = cbind (drop m) (fun a => drop (f a)).
Proof. destruct m; reflexivity. Qed.
Lemma drop_each {A B} (f : A -> cres lverr unit) (g : B -> cres verr unit) (h : A -> B) l : (forall a, In a l -> drop (f a) = g (h a)) -> drop (each f l) = each g (map h l).
Proof.
  induction l as [|a l IH]; intros H; [reflexivity|]. cbn [each map]. rewrite drop_bind, (H a (or_introl eq_refl)). destruct (g (h a)); cbn [cbind]; try reflexivity.
  apply IH. intros b Hb. apply H. right. exact Hb.
Qed.
Section DropIds.
Context {A L : Type}.
Variables (id : A -> option lid) (whole : A -> loc) (err : N -> A -> A -> verr) (chk : bool) (lab : A -> L) (err' : N -> L -> L -> verr).
Hypothesis Herr : forall i a b, err i a b = err' i (lab a) (lab b).
Definition er_seen (seen : list (N * (A * loc))) : list (N * L) := map (fun e => (fst e, lab (fst (snd e)))) seen.
Lemma visited_er i seen : visited i (er_seen seen) = option_map (fun e => lab (fst e)) (visited i seen).
Proof. induction seen as [|[j [a l]] seen IH]; [reflexivity|]. cbn [er_seen map visited fst snd]. destruct (j =? i); [reflexivity|exact IH]. Qed.
Lemma drop_ids l : forall st seen, drop (dup_ids id whole err (fun _ => COk tt) chk st seen l) = field_ids err' chk st (er_seen seen) (map (fun a => (er_id (id a), lab a)) l).
Proof.
  induction l as [|a l IH]; intros st seen; [reflexivity|]. cbn [dup_ids map field_ids]. destruct (gen_next chk st (er_id (id a))) as [[i st']|]; [|reflexivity].
  rewrite visited_er. destruct (visited i seen) as [[b first]|]; cbn [option_map fst drop]; [rewrite Herr; reflexivity|]. cbn [cbind]. rewrite IH. reflexivity.
Qed.
End DropIds.
Lemma p_values_er {A B} (f : A -> B) (p : lpunct A) : p_values (p_map (fun e => f (fst e)) p) = map f (map fst (p_values p)).
Proof. rewrite p_values_map, map_map. reflexivity. Qed.
Lemma p_len_map {A B} (f : A -> B) (p : punct A) : p_len (p_map f p) = p_len p.
Proof. rewrite !p_len_values, p_values_map, map_length. reflexivity. Qed.
Lemma combine_swap {A B} (l : list A) (r : list B) : combine r l = map (fun e => (snd e, fst e)) (combine l r).
Proof. revert r. induction l as [|a l IH]; intros [|b r]; cbn [combine map]; [reflexivity|reflexivity|reflexivity|]. rewrite IH. reflexivity. Qed.
Lemma combine_map_l {A B C} (f : A -> C) (l : list A) (r : list B) : combine (map f l) r = map (fun e => (f (fst e), snd e)) (combine l r).
Proof. revert r. induction l as [|a l IH]; intros [|b r]; cbn [combine map]; [reflexivity|reflexivity|reflexivity|]. rewrite IH. reflexivity. Qed.
Lemma drop_field_ids chk fs : drop (lfield_ids chk fs) = validate_field_ids chk (er_fields fs).
Proof.
  destruct fs as [o c l|o c l|]; cbn [lfield_ids er_fields validate_field_ids]; [| |reflexivity].
  - rewrite (drop_ids _ _ _ chk (fun f => ln_text (lnf_name f)) DuplicateNamedFieldId) by reflexivity. rewrite p_values_er, !map_map. reflexivity.
  - rewrite (drop_ids _ _ _ chk fst (fun i pos other => DuplicateUnnamedFieldId i (pos + 1) (other + 1))) by reflexivity. f_equal.
    rewrite p_values_er, p_len_map. set (xs := map fst (p_values l)). rewrite map_map, combine_map_l, (combine_swap xs (seq 0 (p_len l))), map_map. reflexivity.
Qed.
Lemma drop_variant_ids chk l : forall st seen, drop (dup_ids lv_id lv_loc (fun i v other => DuplicateVariantId i (ln_text (lv_name v)) (ln_text (lv_name other))) (fun v => lfield_ids chk (lv_fields v)) chk st seen l)
  = variant_ids chk st (er_seen (fun v => ln_text (lv_name v)) seen) (map er_variant l).
Proof.
  induction l as [|v l IH]; intros st seen; [reflexivity|]. cbn [dup_ids map variant_ids er_variant pv_id pv_name pv_fields]. destruct (gen_next chk st (er_id (lv_id v))) as [[i st']|]; [|reflexivity].
  rewrite visited_er. destruct (visited i seen) as [[b first]|]; cbn [option_map fst drop]; [reflexivity|]. rewrite drop_bind, drop_field_ids.
  destruct (validate_field_ids chk (er_fields (lv_fields v))); cbn [cbind]; try reflexivity. rewrite IH. reflexivity.
Qed.
Lemma drop_enum_ids chk vs : drop (lenum_ids chk vs) = validate_enum_ids chk (p_map (fun e => er_variant (fst e)) vs).
Proof. unfold lenum_ids, validate_enum_ids. rewrite drop_variant_ids, p_values_er. reflexivity. Qed.

Lemma seen_at_name n seen : seen_name n (map ln_text seen) = match seen_at n seen with Some _ => true | None => false end.
Proof. induction seen as [|m seen IH]; [reflexivity|]. cbn [map seen_name existsb seen_at]. destruct (str_eqb n (ln_text m)); [reflexivity|exact IH]. Qed.
Lemma drop_names {A} (name : A -> lname) err l : forall seen, drop (dup_names name err (fun _ => COk tt) seen l) = match repeated (map ln_text seen) (map (fun a => ln_text (name a)) l) with Some n => CErr (err n) | None => COk tt end.
Proof.
  induction l as [|a l IH]; intros seen; [reflexivity|]. cbn [dup_names map repeated]. rewrite seen_at_name. destruct (seen_at (ln_text (name a)) seen); [reflexivity|]. cbn [cbind]. apply IH.
Qed.
Lemma drop_field_names fs : drop (lfield_names fs) = validate_field_names (er_fields fs).
Proof.
  destruct fs as [o c l|o c l|]; cbn [lfield_names er_fields validate_field_names]; try reflexivity. rewrite drop_names, p_values_er, !map_map. reflexivity.
Qed.
Lemma drop_variant_names l : forall seen, drop (dup_names lv_name DuplicateVariantName (fun v => lfield_names (lv_fields v)) seen l) = Compiler.variant_names (map ln_text seen) (map er_variant l).
Proof.
  induction l as [|v l IH]; intros seen; [reflexivity|]. cbn [dup_names map Compiler.variant_names er_variant pv_name pv_fields]. rewrite seen_at_name. destruct (seen_at (ln_text (lv_name v)) seen); [reflexivity|].
  rewrite drop_bind, drop_field_names. destruct (validate_field_names (er_fields (lv_fields v))); cbn [cbind]; try reflexivity. apply (IH (lv_name v :: seen)).
Qed.
Lemma drop_enum_names vs : drop (lenum_names vs) = validate_enum_names (p_map (fun e => er_variant (fst e)) vs).
Proof. unfold lenum_names, validate_enum_names. rewrite drop_variant_names, p_values_er. reflexivity. Qed.
Lemma lintroduces_name {F} (d : ldef F) : map ln_text (lintroduces d) = match def_name (er_def d) with Some n => [n] | None => [] end.
Proof.
  destruct d as [c kw n o e ds|c a kw n g fs|c a kw n g o e vs|c kw n g e t m|c kw n k t e v vl m|kw segs el m]; try reflexivity.
  destruct el as [[l n]|]; [reflexivity|]. cbn. rewrite <- map_rev. destruct (rev segs); reflexivity.
Qed.
Lemma module_names_repeated {F} (ds : list (ldef F)) : forall seen, module_names seen (map er_def ds) = repeated seen (map ln_text (flat_map lintroduces ds)).
Proof.
  induction ds as [|d ds IH]; intros seen; [reflexivity|]. cbn [map module_names flat_map]. rewrite map_app, lintroduces_name. destruct (def_name (er_def d)) as [n|]; [|apply IH].
  cbn [app repeated]. destruct (seen_name n seen); [reflexivity|apply IH].
Qed.
Lemma drop_module_names {F} (ds : list (ldef F)) : drop (lmodule_names ds) = validate_names_in_module (map er_def ds).
Proof. unfold lmodule_names, validate_names_in_module. rewrite drop_names, module_names_repeated. reflexivity. Qed.

Lemma remove_er u e : map ln_text (lremove_visited u e) = remove_visited (map ln_text u) e.
Proof.
  destruct e as [[p n] g]. unfold lremove_visited, remove_visited. destruct p; [destruct g|]; try reflexivity.
  induction u as [|m u IH]; [reflexivity|]. cbn [map filter]. destruct (negb (str_eqb (ln_text m) n)); cbn [map]; rewrite IH; reflexivity.
Qed.
Lemma fold_remove_er es : forall u, map ln_text (fold_left lremove_visited es u) = fold_left remove_visited es (map ln_text u).
Proof. induction es as [|e es IH]; intros u; [reflexivity|]. cbn [fold_left]. rewrite IH, remove_er. reflexivity. Qed.
Lemma fold_fields_er fss : forall u, map ln_text (fold_left (fun u fs => lfield_generics fs u) fss u) = fold_left (fun u fs => validate_field_generics fs u) (map er_fields fss) (map ln_text u).
Proof. induction fss as [|fs fss IH]; intros u; [reflexivity|]. cbn [fold_left map]. rewrite IH. f_equal. apply fold_remove_er. Qed.
Lemma drop_generics pick g fss : drop (lgenerics_ok pick g fss) = validate_generics pick (er_generics g) (map er_fields fss).
Proof.
  destruct g as [g|]; [|reflexivity]. cbn [lgenerics_ok er_generics option_map validate_generics]. rewrite drop_bind, drop_names, p_values_er, map_map. cbn [map].
  replace (map (fun x => ln_text (fst x)) (p_values g)) with (map ln_text (map fst (p_values g))) by apply map_map.
  rewrite map_map. destruct (repeated [] _); cbn [cbind]; [reflexivity|]. cbv zeta. rewrite <- (map_map fst ln_text), <- fold_fields_er, map_length.
  rewrite nth_error_map. destruct (nth_error _ _); reflexivity.
Qed.
Lemma drop_tuple t : drop (ltuple_size t) = validate_tuple_size (er_ty t).
Proof. unfold ltuple_size, validate_tuple_size. destruct (bad_tuple (er_ty t)); reflexivity. Qed.
Lemma types_er fs : map er_ty (lfield_types fs) = field_types (er_fields fs).
Proof. destruct fs as [o c l|o c l|]; cbn [lfield_types er_fields field_types]; [| |reflexivity]; rewrite p_values_map, !map_map; reflexivity. Qed.
Lemma drop_tuples fs : drop (lfield_tuples fs) = validate_field_tuples (er_fields fs).
Proof. unfold lfield_tuples, validate_field_tuples. rewrite <- types_er. apply drop_each. intros t _. apply drop_tuple. Qed.
Lemma drop_definition {F} pick chk (d : ldef F) : drop (lvalidate_definition pick chk d) = validate_definition pick chk (er_def d).
Proof.
  induction d as [c kw n o e ds IH|c a kw n g fs|c a kw n g o e vs|c kw n g e t m|c kw n k t e v vl m|kw segs el m] using ldef_ind2; cbn [lvalidate_definition er_def validate_definition].
  - rewrite drop_bind, drop_module_names. destruct (validate_names_in_module (map er_def ds)); cbn [cbind]; try reflexivity. apply drop_each. exact IH.
  - rewrite drop_bind, drop_field_ids. destruct (validate_field_ids chk (er_fields fs)); cbn [cbind]; try reflexivity.
    rewrite drop_bind, drop_field_names. destruct (validate_field_names (er_fields fs)); cbn [cbind]; try reflexivity.
    rewrite drop_bind, drop_generics. cbn [map]. destruct (validate_generics pick (er_generics g) [er_fields fs]); cbn [cbind]; try reflexivity. apply drop_tuples.
  - rewrite drop_bind, drop_enum_ids. destruct (validate_enum_ids chk _); cbn [cbind]; try reflexivity.
    rewrite drop_bind, drop_enum_names. destruct (validate_enum_names _); cbn [cbind]; try reflexivity.
    rewrite drop_bind, drop_generics. rewrite p_values_map, !map_map. cbn [er_variant pv_fields]. destruct (validate_generics pick (er_generics g) _); cbn [cbind]; try reflexivity.
    apply (drop_each _ (fun v => validate_field_tuples (pv_fields v)) (fun e => er_variant (fst e))). intros v _. apply drop_tuples.
  - apply drop_tuple.
  - apply drop_tuple.
  - reflexivity.
Qed.
Lemma drop_schema {F} pick chk (s : lschema F) : drop (lvalidate_schema pick chk s) = validate_schema pick chk (er_schema s).
Proof.
  unfold lvalidate_schema, validate_schema. cbn [er_schema ps_defs]. rewrite drop_bind, drop_module_names. destruct (validate_names_in_module _); cbn [cbind]; try reflexivity.
  apply drop_each. intros d _. apply drop_definition.
Qed.

(** * What an error reports *)
Lemma cbind_cases {A B} (m : cres lverr A) (f : A -> cres lverr B) e : cbind m f = CErr e -> m = CErr e \/ exists a, m = COk a /\ f a = CErr e.
Proof. destruct m; cbn; intros H; [right; eauto|left; congruence|discriminate]. Qed.
Lemma each_cases {A} (f : A -> cres lverr unit) l e : each f l = CErr e -> exists a, In a l /\ f a = CErr e.
Proof.
  induction l as [|a l IH]; intros H; [discriminate|]. cbn [each] in H. apply cbind_cases in H as [H|(u & _ & H)]; [exists a; split; [left; reflexivity|exact H]|].
  destruct (IH H) as (b & Hb & He). exists b. split; [right; exact Hb|exact He].
Qed.
Lemma gen_next_ids chk st o i st' : gen_next chk st o = Some (i, st') -> st < 2 ^ 32 -> (forall e, o = Some e -> e < 2 ^ 32) ->
  i = match o with Some e => e | None => st end /\ st' = (i + 1) mod 2 ^ 32 /\ i < 2 ^ 32.
Proof.
  intros H Hst Ho. unfold gen_next in H. set (j := match o with Some e => e | None => st end) in *.
  assert (Hj : j < 2 ^ 32) by (unfold j; destruct o as [e|]; [apply Ho; reflexivity|exact Hst]). unfold u32_max in H.
  destruct (N.eqb_spec j (2 ^ 32 - 1)) as [E|E].
  - destruct chk; [discriminate|]. injection H as <- <-. split; [reflexivity|]. split; [|exact Hj]. rewrite E. reflexivity.
  - injection H as <- <-. split; [reflexivity|]. split; [|exact Hj]. rewrite N.mod_small by lia. reflexivity.
Qed.
Section RepIds.
Context {A : Type}.
Variables (id : A -> option lid) (whole : A -> loc) (err : N -> A -> A -> verr) (inner : A -> cres lverr unit) (chk : bool).
Definition pairs (seen : list (N * (A * loc))) : list (N * A) := map (fun e => (fst e, fst (snd e))) (rev seen).
Definition marked (seen : list (N * (A * loc))) : Prop := Forall (fun e => snd (snd e) = mark (id (fst (snd e))) (whole (fst (snd e)))) seen.
Lemma visited_pairs i seen a l : visited i seen = Some (a, l) -> marked seen -> l = mark (id a) (whole a) /\ exists l1 l2, pairs seen = l1 ++ (i, a) :: l2.
Proof.
  unfold pairs. induction seen as [|[j [b m]] seen IH]; intros H Hm; [discriminate|]. cbn [visited] in H. inversion Hm as [|x xs Hx Hxs]. subst. cbn [snd fst] in Hx. cbn [rev]. rewrite map_app. cbn [map fst snd].
  destruct (N.eqb_spec j i) as [->|_].
  - injection H as -> ->. split; [exact Hx|]. eexists _, []. reflexivity.
  - destruct (IH H Hxs) as (E & l1 & l2 & E2). split; [exact E|]. rewrite E2. exists l1, (l2 ++ [(j, b)]). rewrite <- app_assoc. reflexivity.
Qed.
Lemma visited_none i seen : visited i seen = None -> ~ In i (map fst (pairs seen)).
Proof.
  unfold pairs. rewrite map_map. cbn [fst]. rewrite map_rev, <- in_rev. induction seen as [|[j b] seen IH]; cbn [visited map fst]; [intros _ []|]. destruct (N.eqb_spec j i); [discriminate|]. intros H [E|E]; [congruence|exact (IH H E)].
Qed.
Lemma dup_ids_err l : forall st seen e, dup_ids id whole err inner chk st seen l = CErr e -> st < 2 ^ 32 -> u32_ids (map (fun a => er_id (id a)) l) -> marked seen -> NoDup (map fst (pairs seen)) ->
  (exists a, In a l /\ inner a = CErr e)
  \/ exists i a b, first_repeat fst (pairs seen ++ combine (ids_from st (map (fun a => er_id (id a)) l)) l) (i, a) (i, b)
       /\ e = (err i b a, Two (mark (id a) (whole a)) (mark (id b) (whole b))).
Proof.
  induction l as [|a l IH]; intros st seen e H Hst Hu Hm Hn; [discriminate|]. cbn [dup_ids] in H.
  destruct (gen_next chk st (er_id (id a))) as [[i st']|] eqn:G; [|discriminate].
  assert (Hu' : u32_ids (map (fun a => er_id (id a)) l)) by (intros x Hx; apply Hu; right; exact Hx).
  destruct (gen_next_ids _ _ _ _ _ G Hst) as (Ei & Es & Hi). { intros x Hx. apply Hu. left. exact Hx. }
  cbn [map ids_from combine]. rewrite <- Ei, <- Es. destruct (visited i seen) as [[b first]|] eqn:V.
  - injection H as <-. right. exists i, b, a. destruct (visited_pairs i seen b first V Hm) as (-> & l1 & l2 & E). split; [|reflexivity].
    exists l1, l2, (combine (ids_from st' (map (fun a => er_id (id a)) l)) l). split; [rewrite E, <- app_assoc; reflexivity|]. split; [reflexivity|]. rewrite <- E. exact Hn.
  - apply cbind_cases in H as [H|(u & _ & H)]; [left; exists a; split; [left; reflexivity|exact H]|].
    assert (Ep : pairs ((i, (a, mark (id a) (whole a))) :: seen) = pairs seen ++ [(i, a)]) by (unfold pairs; cbn [rev]; rewrite map_app; reflexivity).
    apply IH in H; [|rewrite Es; apply N.mod_lt; lia|exact Hu'|constructor; [reflexivity|exact Hm]|].
    + rewrite Ep in H. destruct H as [(x & Hx & He)|(j & x & y & Hr & He)]; [left; exists x; split; [right; exact Hx|exact He]|]. right. exists j, x, y. rewrite <- app_assoc in Hr. cbn [app] in Hr. auto.
    + rewrite Ep, map_app. cbn [map fst].
      apply (NoDup_Add (a := i) (l := map fst (pairs seen))); [rewrite <- (app_nil_r (map fst (pairs seen))) at 1; apply Add_app|]. split; [exact Hn|apply visited_none; exact V].
Qed.
Lemma dup_ids_report l e : dup_ids id whole err inner chk 1 [] l = CErr e -> u32_ids (map (fun a => er_id (id a)) l) ->
  (exists a, In a l /\ inner a = CErr e)
  \/ exists ids i a b, assigns (map (fun a => er_id (id a)) l) ids /\ first_repeat fst (combine ids l) (i, a) (i, b) /\ e = (err i b a, Two (mark (id a) (whole a)) (mark (id b) (whole b))).
Proof.
  intros H Hu. apply dup_ids_err in H; [|reflexivity|exact Hu|constructor|constructor]. destruct H as [H|(i & a & b & Hr & He)]; [left; exact H|right].
  exists (ids_from 1 (map (fun a => er_id (id a)) l)), i, a, b. split; [apply assigns_ids_from|]. split; [exact Hr|exact He].
Qed.
End RepIds.

Lemma seen_at_some n seen l : seen_at n seen = Some l -> exists m l1 l2, rev seen = l1 ++ m :: l2 /\ ln_text m = n /\ l = ln_loc m.
Proof.
  induction seen as [|m seen IH]; intros H; [discriminate|]. cbn [seen_at] in H. cbn [rev]. destruct (str_eqb n (ln_text m)) eqn:E.
  - apply str_eqb_eq in E. injection H as <-. exists m, (rev seen), []. auto.
  - destruct (IH H) as (x & l1 & l2 & E1 & E2). exists x, l1, (l2 ++ [m]). rewrite E1, <- app_assoc. auto.
Qed.
Lemma seen_at_none n seen : seen_at n seen = None -> ~ In n (map ln_text (rev seen)).
Proof.
  rewrite map_rev, <- in_rev. induction seen as [|m seen IH]; cbn [seen_at map]; [intros _ []|]. destruct (str_eqb n (ln_text m)) eqn:E; [discriminate|]. intros H [K|K]; [subst n; rewrite str_eqb_refl in E; discriminate|exact (IH H K)].
Qed.
Lemma dup_names_err {A} (name : A -> lname) err inner l : forall seen e, dup_names name err inner seen l = CErr e -> NoDup (map ln_text (rev seen)) ->
  (exists a, In a l /\ inner a = CErr e)
  \/ exists m n, first_repeat ln_text (rev seen ++ map name l) m n /\ e = (err (ln_text m), Two (ln_loc m) (ln_loc n)).
Proof.
  induction l as [|a l IH]; intros seen e H Hn; [discriminate|]. cbn [dup_names] in H. destruct (seen_at (ln_text (name a)) seen) as [first|] eqn:S.
  - injection H as <-. right. destruct (seen_at_some _ _ _ S) as (m & l1 & l2 & E & Em & El). exists m, (name a). split; [|rewrite Em, El; reflexivity].
    exists l1, l2, (map name l). split; [rewrite E, <- app_assoc; reflexivity|]. split; [exact Em|]. rewrite <- E. exact Hn.
  - apply cbind_cases in H as [H|(u & _ & H)]; [left; exists a; split; [left; reflexivity|exact H]|]. apply IH in H.
    + cbn [rev] in H. destruct H as [(x & Hx & He)|(m & n & Hr & He)]; [left; exists x; split; [right; exact Hx|exact He]|]. right. exists m, n. rewrite <- app_assoc in Hr. auto.
    + cbn [rev]. rewrite map_app. cbn [map]. apply (NoDup_Add (a := ln_text (name a)) (l := map ln_text (rev seen))); [rewrite <- (app_nil_r (map ln_text (rev seen))) at 1; apply Add_app|].
      split; [exact Hn|apply seen_at_none; exact S].
Qed.
Lemma dup_names_report {A} (name : A -> lname) err inner l e : dup_names name err inner [] l = CErr e ->
  (exists a, In a l /\ inner a = CErr e) \/ exists m n, first_repeat ln_text (map name l) m n /\ e = (err (ln_text m), Two (ln_loc m) (ln_loc n)).
Proof. intros H. apply dup_names_err in H; [exact H|constructor]. Qed.

Lemma names_body {F} (ds : list (ldef F)) : flat_map lintroduces ds = names_of_body ds.
Proof.
  unfold names_of_body. apply flat_map_ext. intros d. destruct d as [c kw n o e ds'|c a kw n g fs|c a kw n g o e vs|c kw n g e t m|c kw n k t e v vl m|kw segs el m]; try reflexivity.
  destruct el as [[l n]|]; [destruct segs; reflexivity|]. destruct segs as [|s segs]; [reflexivity|]. cbn [lintroduces].
  destruct (exists_last (l := s :: segs)) as (l' & x & E); [discriminate|]. rewrite E, rev_app_distr. cbn [rev app]. rewrite last_default. reflexivity.
Qed.

Section Rep.
Context {F : Type}.
Variable s : lschema F.
(** Ids within [u32], as parsed. *)
Definition fields_u32 (fs : lfields) : Prop := u32_ids (field_decls (er_fields fs)).
Lemma field_decls_er fs : field_decls (er_fields fs) = match fs with LFNamed _ _ l => map (fun f => er_id (lnf_id (fst f))) (p_values l) | LFUnnamed _ _ l => map (fun f => er_id (luf_id (fst f))) (p_values l) | LFUnit => [] end.
Proof. destruct fs as [o c l|o c l|]; cbn [er_fields field_decls]; [| |reflexivity]; rewrite p_values_map, map_map; reflexivity. Qed.

Lemma combine_seq_pairs {A} (n : nat) (l : list A) k a : In (k, a) (combine (seq n (length l)) l) -> In a l.
Proof. apply in_combine_r. Qed.
Lemma first_repeat_map {A B K} (f : A -> B) (key : A -> K) (key' : B -> K) l a b : (forall x, key' (f x) = key x) -> first_repeat key l a b -> first_repeat key' (map f l) (f a) (f b).
Proof.
  intros H (l1 & l2 & l3 & -> & E & N). exists (map f l1), (map f l2), (map f l3). split; [rewrite map_app; cbn [map]; rewrite map_app; reflexivity|]. split; [rewrite !H; exact E|].
  replace (map f l1 ++ f a :: map f l2) with (map f (l1 ++ a :: l2)) by (rewrite map_app; reflexivity). rewrite map_map. rewrite (map_ext _ key) by exact H. exact N.
Qed.
Lemma fields_ids_report chk d fs e : In d (schema_defs s) -> In fs (fields_of d) -> fields_u32 fs -> lfield_ids chk fs = CErr e -> report s (fst e) (snd e).
Proof.
  intros Hd Hf Hu H. unfold fields_u32 in Hu. rewrite field_decls_er in Hu. destruct fs as [o c l|o c l|]; cbn [lfield_ids] in H; [| |discriminate].
  - apply dup_ids_report in H; [|rewrite map_map; exact Hu]. destruct H as [(a & _ & H)|(ids & i & f & g & Ha & Hr & ->)]; [discriminate|]. rewrite map_map in Ha. cbn [fst snd].
    replace (mark (lnf_id f) (lnf_loc f)) with (id_at (lnf_id f) (lnf_loc f)) by (destruct (lnf_id f) as [[]|]; reflexivity).
    replace (mark (lnf_id g) (lnf_loc g)) with (id_at (lnf_id g) (lnf_loc g)) by (destruct (lnf_id g) as [[]|]; reflexivity). eapply R_named_id; eassumption.
  - set (xs := map fst (p_values l)) in *. assert (Hlen : length xs = p_len l) by (unfold xs; rewrite map_length, p_len_values; reflexivity).
    assert (Eid : map (fun a : nat * lufield => er_id (luf_id (snd a))) (combine (seq 0 (p_len l)) xs) = map (fun f => er_id (luf_id (fst f))) (p_values l)).
    { rewrite <- (map_map snd (fun f => er_id (luf_id f))). rewrite <- (map_map fst (fun f => er_id (luf_id f)) (p_values l)). fold xs. f_equal.
      rewrite <- Hlen. clear. generalize 0%nat. induction xs as [|x xs IH]; intros n; [reflexivity|]. cbn [length seq combine map snd]. rewrite IH. reflexivity. }
    apply dup_ids_report in H; [|rewrite Eid; exact Hu]. rewrite Eid in H. destruct H as [(a & _ & H)|(ids & i & [j f] & [k g] & Ha & Hr & ->)]; [discriminate|]. cbn [fst snd].
    replace (mark (luf_id f) (luf_loc f)) with (id_at (luf_id f) (luf_loc f)) by (destruct (luf_id f) as [[]|]; reflexivity).
    replace (mark (luf_id g) (luf_loc g)) with (id_at (luf_id g) (luf_loc g)) by (destruct (luf_id g) as [[]|]; reflexivity).
    apply (R_unnamed_id s d o c l ids i (j + 1) (k + 1) f g Hd Hf Ha). fold xs.
    assert (E1 : combine (seq 1 (p_len l)) xs = map (fun e => ((fst e + 1)%nat, snd e)) (combine (seq 0 (p_len l)) xs)).
    { rewrite <- seq_shift, combine_map_l. apply map_ext. intros [n x]. cbn [fst snd]. f_equal. lia. }
    rewrite E1, combine_map_r.
    exact (first_repeat_map (fun e : N * (nat * lufield) => let '(a, b) := e in (a, ((fst b + 1)%nat, snd b))) fst fst _ (i, (j, f)) (i, (k, g)) (fun x => ltac:(destruct x; reflexivity)) Hr).
Qed.
Lemma fields_names_report d fs e : In d (schema_defs s) -> In fs (fields_of d) -> lfield_names fs = CErr e -> report s (fst e) (snd e).
Proof.
  intros Hd Hf H. destruct fs as [o c l|o c l|]; cbn [lfield_names] in H; try discriminate. apply dup_names_report in H as [(a & _ & H)|(m & n & Hr & ->)]; [discriminate|]. rewrite map_map in Hr. cbn [fst snd]. eapply R_field_name; eassumption.
Qed.
Lemma types_in_same fs : lfield_types fs = types_in fs.
Proof. destruct fs; reflexivity. Qed.
Lemma tuple_report d t e : In d (schema_defs s) -> In t (types_of d) -> ltuple_size t = CErr e -> report s (fst e) (snd e).
Proof.
  intros Hd Ht H. unfold ltuple_size in H. destruct (bad_tuple (er_ty t)) as [a|] eqn:E; [|discriminate]. injection H as <-. cbn [fst snd].
  destruct (bad_tuple_some _ _ E) as (ts & Hp & Ha). eapply R_tuple; eassumption.
Qed.
Lemma tuples_report d fs e : In d (schema_defs s) -> In fs (fields_of d) -> lfield_tuples fs = CErr e -> report s (fst e) (snd e).
Proof.
  intros Hd Hf H. apply each_cases in H as (t & Ht & H). rewrite types_in_same in Ht. apply (tuple_report d t e Hd); [|exact H].
  assert (Hin : In t (flat_map types_in (fields_of d))) by (apply in_flat_map; eauto). destruct d; try exact Hin; destruct Hf.
Qed.
Lemma generics_report pick d g fss e : In d (schema_defs s) -> params_of d = match g with Some g => map fst (p_values g) | None => [] end -> fields_of d = fss -> lgenerics_ok pick g fss = CErr e -> report s (fst e) (snd e).
Proof.
  intros Hd Hg <- H. destruct g as [g|]; [|discriminate]. cbn [lgenerics_ok] in H. apply cbind_cases in H as [H|(u & _ & H)].
  - apply dup_names_report in H as [(a & _ & H)|(m & n & Hr & ->)]; [discriminate|]. rewrite map_id, <- Hg in Hr. cbn [fst snd]. eapply R_generic_name; eassumption.
  - cbv zeta in H. destruct (nth_error _ _) as [n|] eqn:E; [|discriminate]. injection H as <-. cbn [fst snd]. apply nth_error_In in E.
    assert (Hin : forall fss u, In n (fold_left (fun u fs => lfield_generics fs u) fss u) -> In n u).
    { clear. induction fss as [|fs fss IH]; intros u H; [exact H|]. cbn [fold_left] in H. apply IH in H. unfold lfield_generics in H. revert H. generalize (flat_map externals (field_types (er_fields fs))) as es. intros es. revert u.
      induction es as [|[[p m] g] es IH']; intros u H; [exact H|]. cbn [fold_left] in H. apply IH' in H. unfold lremove_visited in H. destruct p; [destruct g|]; try exact H. apply filter_In in H. tauto. }
    eapply R_unused; [exact Hd|rewrite Hg; eapply Hin; exact E|]. apply (in_map ln_text) in E. rewrite fold_fields_er in E. apply left_over in E. tauto.
Qed.
Definition def_u32 (d : ldef F) : Prop := u32_ids (map (fun v => er_id (lv_id v)) (variants_of d)) /\ forall fs, In fs (fields_of d) -> fields_u32 fs.
Lemma definition_report pick chk d e : (forall x, In x (all_defs d) -> In x (schema_defs s) /\ def_u32 x) -> lvalidate_definition pick chk d = CErr e -> report s (fst e) (snd e).
Proof.
  induction d as [c kw n o k ds IH|c a kw n g fs|c a kw n g o k vs|c kw n g k t m|c kw n k t eq v vl m|kw segs el m] using ldef_ind2; intros Hall H; cbn [lvalidate_definition] in H.
  - apply cbind_cases in H as [H|(u & _ & H)].
    + apply dup_names_report in H as [(a & _ & H)|(m & n' & Hr & ->)]; [discriminate|]. rewrite map_id, names_body in Hr. cbn [fst snd]. apply (R_module_name s ds); [|exact Hr].
      right. apply in_flat_map. exists (LModule c kw n o k ds). split; [apply Hall; left; reflexivity|left; reflexivity].
    + apply each_cases in H as (d & Hd & H). apply (IH d Hd); [|exact H]. intros x Hx. apply Hall. right. apply in_flat_map. eauto.
  - destruct (Hall _ (or_introl eq_refl)) as [Hd [_ Hu]]. specialize (Hu fs (or_introl eq_refl)). assert (Hf : In fs (fields_of (LStruct c a kw n g fs))) by (left; reflexivity).
    apply cbind_cases in H as [H|(u1 & _ & H)]; [exact (fields_ids_report chk _ fs e Hd Hf Hu H)|].
    apply cbind_cases in H as [H|(u2 & _ & H)]; [exact (fields_names_report _ fs e Hd Hf H)|].
    apply cbind_cases in H as [H|(u3 & _ & H)]; [exact (generics_report pick _ g [fs] e Hd eq_refl eq_refl H)|exact (tuples_report _ fs e Hd Hf H)].
  - set (d := LEnum c a kw n g o k vs) in *. destruct (Hall _ (or_introl eq_refl)) as [Hd [Hv Hu]].
    assert (Hf : forall v, In v (map fst (p_values vs)) -> In (lv_fields v) (fields_of d)) by (intros v H'; unfold d; cbn [fields_of variants_of]; apply in_map; exact H').
    apply cbind_cases in H as [H|(u1 & _ & H)].
    { apply dup_ids_report in H; [|exact Hv]. destruct H as [(v & Hin & H)|(ids & i & v & w & Ha & Hr & ->)]; [exact (fields_ids_report chk d _ e Hd (Hf v Hin) (Hu _ (Hf v Hin)) H)|]. cbn [fst snd].
      replace (mark (lv_id v) (lv_loc v)) with (id_at (lv_id v) (lv_loc v)) by (destruct (lv_id v) as [[]|]; reflexivity).
      replace (mark (lv_id w) (lv_loc w)) with (id_at (lv_id w) (lv_loc w)) by (destruct (lv_id w) as [[]|]; reflexivity). eapply R_variant_id; eassumption. }
    apply cbind_cases in H as [H|(u2 & _ & H)].
    { apply dup_names_report in H as [(v & Hin & H)|(m & n' & Hr & ->)]; [exact (fields_names_report d _ e Hd (Hf v Hin) H)|]. cbn [fst snd]. eapply R_variant_name; eassumption. }
    apply cbind_cases in H as [H|(u3 & _ & H)].
    { refine (generics_report pick d g _ e Hd eq_refl _ H). unfold d. cbn [fields_of variants_of]. apply map_map. }
    apply each_cases in H as (v & Hin & H). refine (tuples_report d _ e Hd (Hf (fst v) _) H). apply in_map. exact Hin.
  - apply (tuple_report (LAlias c kw n g k t m) t e); [apply Hall; left; reflexivity|left; reflexivity|exact H].
  - apply (tuple_report (LConst c kw n k t eq v vl m) t e); [apply Hall; left; reflexivity|left; reflexivity|exact H].
  - discriminate.
Qed.
Lemma schema_report pick chk e : (forall d, In d (schema_defs s) -> def_u32 d) -> lvalidate_schema pick chk s = CErr e -> report s (fst e) (snd e).
Proof.
  intros Hu H. unfold lvalidate_schema in H. apply cbind_cases in H as [H|(u & _ & H)].
  - apply dup_names_report in H as [(a & _ & H)|(m & n' & Hr & ->)]; [discriminate|]. rewrite map_id, names_body in Hr. cbn [fst snd]. apply (R_module_name s (ls_defs s)); [left; reflexivity|exact Hr].
  - apply each_cases in H as (d & Hd & H). apply (definition_report pick chk d e); [|exact H]. intros x Hx. assert (Hs : In x (schema_defs s)) by (apply in_flat_map; eauto). auto.
Qed.
End Rep.

(** * What stands at the locations *)
Inductive subs {A : Type} : list A -> list A -> Prop :=
| subs_nil : subs [] []
| subs_skip a l l' : subs l l' -> subs l (a :: l')
| subs_keep a l l' : subs l l' -> subs (a :: l) (a :: l').
Lemma subs_empty {A} (l : list A) : subs [] l.
Proof. induction l; constructor; assumption. Qed.
Lemma subs_refl {A} (l : list A) : subs l l.
Proof. induction l; constructor; assumption. Qed.
Lemma subs_trans {A} (l1 l2 l3 : list A) : subs l1 l2 -> subs l2 l3 -> subs l1 l3.
Proof.
  intros H1 H2. revert l1 H1. induction H2 as [|a l l' H IH|a l l' H IH]; intros l1 H1; [exact H1|apply subs_skip, IH, H1|].
  inversion H1 as [|x y z Hx|x y z Hx]; subst; [apply subs_skip, IH, Hx|apply subs_keep, IH, Hx].
Qed.
Lemma subs_app {A} (a a' b b' : list A) : subs a a' -> subs b b' -> subs (a ++ b) (a' ++ b').
Proof. intros H K. induction H; cbn [app]; [exact K|apply subs_skip; assumption|apply subs_keep; assumption]. Qed.
Lemma subs_app_r {A} (l a b : list A) : subs l b -> subs l (a ++ b).
Proof. intros H. apply (subs_app [] a l b); [apply subs_empty|exact H]. Qed.
Lemma subs_app_l {A} (l a b : list A) : subs l a -> subs l (a ++ b).
Proof. intros H. rewrite <- (app_nil_r l). apply subs_app; [exact H|apply subs_empty]. Qed.
Lemma subs_flat_map {A B} (f g : A -> list B) l : (forall a, In a l -> subs (f a) (g a)) -> subs (flat_map f l) (flat_map g l).
Proof. induction l as [|a l IH]; intros H; [constructor|]. cbn [flat_map]. apply subs_app; [apply H; left; reflexivity|apply IH; intros b Hb; apply H; right; exact Hb]. Qed.
Lemma subs_in_flat {A B} (f : A -> list B) l a : In a l -> subs (f a) (flat_map f l).
Proof. induction l as [|b l IH]; intros H; [destruct H|]. destruct H as [->|H]; cbn [flat_map]; [apply subs_app_l, subs_refl|apply subs_app_r, IH, H]. Qed.
Lemma subs_map {A B} (f : A -> B) l l' : subs l l' -> subs (map f l) (map f l').
Proof. induction 1; cbn [map]; constructor; assumption. Qed.
Lemma subs_in {A} (l l' : list A) x : subs l l' -> In x l -> In x l'.
Proof. induction 1 as [|a l l' H IH|a l l' H IH]; intros Hx; [exact Hx|right; auto|]. destruct Hx as [->|Hx]; [left; reflexivity|right; auto]. Qed.
Lemma subs_turn (l l' : list loc) : subs l l' -> in_turn l' -> in_turn l.
Proof.
  unfold in_turn. induction 1 as [|a l l' H IH|a l l' H IH]; intros Ht; [exact Ht|inversion Ht; auto|]. inversion Ht as [|x y Hx Hy]. subst. constructor; [|exact (IH Hy)].
  rewrite Forall_forall in *. intros z Hz. apply Hx. exact (subs_in _ _ _ H Hz).
Qed.
Lemma turn_pair l1 a l2 b l3 : in_turn (l1 ++ a :: l2 ++ b :: l3) -> snd a <= fst b.
Proof.
  unfold in_turn. induction l1 as [|x l1 IH]; intros H; cbn [app] in H; inversion H as [|y ys Hy Hys]; subst; [|exact (IH Hys)]. rewrite Forall_forall in Hy. apply Hy. apply in_app_iff. right. left. reflexivity.
Qed.

(** The lists of names are parts of the names of the schema. *)
Definition texts (l : list lword) : list lname := map lw_name l.
Lemma texts_app a b : texts (a ++ b) = texts a ++ texts b.
Proof. apply map_app. Qed.
Lemma texts_flat {A} (f : A -> list lword) l : texts (flat_map f l) = flat_map (fun a => texts (f a)) l.
Proof. induction l as [|a l IH]; [reflexivity|]. cbn [flat_map]. rewrite texts_app, IH. reflexivity. Qed.
Lemma subs_punct {A} (f : A -> list lword) (g : A -> list lname) (p : lpunct A) : (forall a, subs (g a) (texts (f a))) -> subs (flat_map (fun e => g (fst e)) (p_values p)) (texts (punct_names f p)).
Proof.
  intros H. destruct p as [l x b]. unfold p_values. cbn [p_init p_last punct_names]. rewrite texts_app, texts_flat, flat_map_app. cbn [flat_map]. rewrite app_nil_r. apply subs_app; [|apply H]. apply subs_flat_map. intros a _. apply H.
Qed.
Lemma flat_single {A B} (f : A -> B) l : map f l = flat_map (fun a => [f a]) l.
Proof. induction l as [|a l IH]; [reflexivity|]. cbn [map flat_map app]. rewrite IH. reflexivity. Qed.
Lemma subs_single {A} (x : A) l : subs [x] (x :: l).
Proof. apply subs_keep, subs_empty. Qed.
Lemma subs_body {F} (ds : list (ldef F)) : subs (names_of_body ds) (texts (flat_map def_names ds)).
Proof.
  rewrite texts_flat. apply subs_flat_map. intros d _. destruct d as [c kw n o e ds'|c a kw n g fs|c a kw n g o e vs|c kw n g e t m|c kw n k t e v vl m|kw segs el m];
    cbn [def_names]; try apply subs_single.
  assert (H : forall l : list lword, texts (map (mention TkNamespace) segs ++ l) = segs ++ texts l). { intros l. rewrite texts_app. f_equal. unfold texts. rewrite map_map. apply map_id. }
  destruct el as [[l n]|]; rewrite H; [destruct segs; apply subs_app_r, subs_single|]. cbn [texts map]. rewrite app_nil_r. destruct segs as [|s segs]; [constructor|].
  destruct (exists_last (l := s :: segs)) as (l' & x & E); [discriminate|]. rewrite E, last_default. apply subs_app_r, subs_refl.
Qed.
Lemma subs_params {F} (d : ldef F) : subs (params_of d) (texts (def_names d)).
Proof.
  assert (H : forall g : lgenerics, subs (map fst (p_values g)) (texts (generics_names (Some g)))).
  { intros g. cbn [generics_names]. rewrite flat_single. apply (subs_punct _ (fun n => [n])). intros a. apply subs_refl. }
  destruct d as [c kw n o e ds'|c a kw n g fs|c a kw n g o e vs|c kw n g e t m|c kw n k t e v vl m|kw segs el m]; cbn [params_of def_names]; try apply subs_empty;
    (destruct g as [g|]; [|apply subs_empty]); apply subs_skip; rewrite texts_app; apply subs_app_l, H.
Qed.
Lemma subs_variants {F} (d : ldef F) : subs (map lv_name (variants_of d)) (texts (def_names d)).
Proof.
  destruct d as [c kw n o e ds'|c a kw n g fs|c a kw n g o e vs|c kw n g e t m|c kw n k t e v vl m|kw segs el m]; cbn [variants_of def_names map]; try apply subs_empty.
  apply subs_skip. rewrite texts_app. apply subs_app_r. rewrite map_map, flat_single. apply (subs_punct _ (fun v => [lv_name v])). intros v. apply subs_single.
Qed.
Lemma subs_fields_names {F} (d : ldef F) fs : In fs (fields_of d) -> subs (texts (fields_names fs)) (texts (def_names d)).
Proof.
  destruct d as [c kw n o e ds'|c a kw n g fs'|c a kw n g o e vs|c kw n g e t m|c kw n k t e v vl m|kw segs el m]; cbn [fields_of variants_of def_names]; intros H; try (destruct H; fail).
  - destruct H as [->|[]]. apply subs_skip. rewrite texts_app. apply subs_app_r, subs_refl.
  - apply in_map_iff in H as (v & <- & H). apply in_map_iff in H as (e' & <- & H). apply subs_skip. rewrite texts_app. apply subs_app_r.
    apply (subs_trans _ (flat_map (fun e => texts (fields_names (lv_fields (fst e)))) (p_values vs))); [exact (subs_in_flat (fun e => texts (fields_names (lv_fields (fst e)))) _ _ H)|].
    apply (subs_punct _ (fun v => texts (fields_names (lv_fields v)))). intros v. apply subs_skip, subs_refl.
Qed.
Lemma subs_named {F} (d : ldef F) o c l : In (LFNamed o c l) (fields_of d) -> subs (map (fun f => lnf_name (fst f)) (p_values l)) (texts (def_names d)).
Proof.
  intros H. refine (subs_trans _ _ _ _ (subs_fields_names d _ H)). cbn [fields_names]. rewrite flat_single. apply (subs_punct _ (fun f => [lnf_name f])). intros f. apply subs_single.
Qed.
Lemma subs_all {F} (d : ldef F) : forall x, In x (all_defs d) -> subs (texts (def_names x)) (texts (def_names d)).
Proof.
  induction d as [c kw n o e ds IH|c a kw n g fs|c a kw n g o e vs|c kw n g e t m|c kw n k t e v vl m|kw segs el m] using ldef_ind2; cbn [all_defs]; intros x [<-|Hx]; try apply subs_refl; try (destruct Hx; fail).
  apply in_flat_map in Hx as (d & Hd & Hx). cbn [def_names]. apply subs_skip. rewrite texts_flat. apply (subs_trans _ _ _ (IH d Hd x Hx)). exact (subs_in_flat (fun d => texts (def_names d)) _ _ Hd).
Qed.
Lemma subs_schema {F} (s : lschema F) d : In d (schema_defs s) -> subs (texts (def_names d)) (texts (schema_names s)).
Proof.
  intros H. apply in_flat_map in H as (x & Hx & Hd). unfold schema_names. rewrite texts_flat. apply (subs_trans _ _ _ (subs_all x d Hd)). exact (subs_in_flat (fun d => texts (def_names d)) _ _ Hx).
Qed.
Lemma subs_bodies {F} (s : lschema F) ds : In ds (bodies s) -> subs (names_of_body ds) (texts (schema_names s)).
Proof.
  intros [<-|H]; [apply subs_body|]. apply in_flat_map in H as (d & Hd & H). destruct d; try (destruct H; fail). destruct H as [<-|[]].
  apply (subs_trans _ _ _ (subs_body ds0)). refine (subs_trans _ _ _ _ (subs_schema s _ Hd)). cbn [def_names]. apply subs_skip, subs_refl.
Qed.
Lemma assigns_explicit {A} (f : A -> option N) (l : list A) ids i a e : assigns (map f l) ids -> In (i, a) (combine ids l) -> f a = Some e -> i = e.
Proof.
  intros [Hl Ha] Hin Hf. apply (In_nth _ _ (0, a)) in Hin as (k & Hk & E). rewrite map_length in *. rewrite combine_length, Hl, Nat.min_id in Hk.
  rewrite combine_nth in E by exact Hl. injection E as E1 E2. specialize (Ha k Hk). rewrite E1 in Ha. rewrite (nth_indep _ None (f a)), map_nth, E2, Hf in Ha by (rewrite map_length; exact Hk). exact Ha.
Qed.
Lemma first_repeat_in {A K} (key : A -> K) l a b : first_repeat key l a b -> In a l /\ In b l.
Proof. intros (l1 & l2 & l3 & -> & _). split; apply in_app_iff; right; [left; reflexivity|right; apply in_app_iff; right; left; reflexivity]. Qed.

Section Points.
Context {F : Type}.
Variables (src : str) (s : lschema F).
Hypothesis Hnames : Forall (fun w => at_loc src (wloc w) (wtext w)) (schema_names s).
Hypothesis Hturn : in_turn (map wloc (schema_names s)).
Hypothesis Hnodes : Forall (node_ok src) (schema_nodes s).

Lemma name_pair l m n : subs l (texts (schema_names s)) -> first_repeat ln_text l m n -> at_loc src (ln_loc m) (ln_text m) /\ at_loc src (ln_loc n) (ln_text m) /\ snd (ln_loc m) <= fst (ln_loc n).
Proof.
  intros Hs Hr. assert (Hat : forall x, In x l -> at_loc src (ln_loc x) (ln_text x)).
  { intros x Hx. apply (subs_in _ _ _ Hs) in Hx. apply in_map_iff in Hx as (w & <- & Hw). rewrite Forall_forall in Hnames. exact (Hnames w Hw). }
  destruct (first_repeat_in _ _ _ _ Hr) as [Hm Hn]. destruct Hr as (l1 & l2 & l3 & El & Ek & _). split; [apply Hat; exact Hm|]. split; [rewrite Ek; apply Hat; exact Hn|].
  assert (Ht : in_turn (map ln_loc l)). { apply (subs_turn _ _ (subs_map ln_loc _ _ Hs)). unfold texts. rewrite map_map. exact Hturn. }
  rewrite El, map_app in Ht. cbn [map] in Ht. rewrite map_app in Ht. exact (turn_pair _ _ _ _ _ Ht).
Qed.
Lemma node_here d n : In d (schema_defs s) -> In n (def_nodes d) -> node_ok src n.
Proof.
  intros Hd Hn. rewrite Forall_forall in Hnodes. apply Hnodes. apply in_flat_map in Hd as (x & Hx & Hd). unfold schema_nodes. apply in_app_iff. right. apply in_flat_map. exists x. split; [exact Hx|].
  clear - Hd Hn. induction x as [c kw m o e ds IH|c a kw m g fs|c a kw m g o e vs|c kw m g e t q|c kw m k t e v vl q|kw segs el q] using ldef_ind2; cbn [all_defs] in Hd; destruct Hd as [<-|Hd]; try exact Hn; try (destruct Hd; fail).
  apply in_flat_map in Hd as (x & Hx & Hd). cbn [def_nodes]. apply in_app_iff. right. apply in_flat_map. exists x. split; [exact Hx|exact (IH x Hx Hd)].
Qed.
Lemma variant_nodes_in d v n : In v (variants_of d) -> In n (variant_nodes v) -> In n (def_nodes (F := F) d).
Proof.
  destruct d as [c kw m o e ds|c a kw m g fs|c a kw m g o e vs|c kw m g e t q|c kw m k t e w vl q|kw segs el q]; cbn [variants_of]; intros H Hn; try (destruct H; fail).
  apply in_map_iff in H as (x & <- & Hx). cbn [def_nodes]. apply in_app_iff. right. apply in_flat_map. eauto.
Qed.
Lemma fields_nodes_in d fs n : In fs (fields_of d) -> In n (fields_nodes fs) -> In n (def_nodes (F := F) d).
Proof.
  intros H Hn. destruct d as [c kw m o e ds|c a kw m g fs'|c a kw m g o e vs|c kw m g e t q|c kw m k t e w vl q|kw segs el q]; try (destruct H; fail).
  - cbn [fields_of] in H. destruct H as [->|[]]. cbn [def_nodes]. apply in_app_iff. right. exact Hn.
  - cbn [fields_of] in H. apply in_map_iff in H as (v & <- & Hv). refine (variant_nodes_in _ v n Hv _). unfold variant_nodes. apply in_app_iff. right. right. apply in_app_iff. left. exact Hn.
Qed.
Lemma type_node t : In (NType t) (type_nodes t).
Proof. destruct t; left; reflexivity. Qed.
Lemma types_node d t : In t (types_of d) -> In (NType t) (def_nodes (F := F) d).
Proof.
  assert (Hf : In t (flat_map types_in (fields_of d)) -> In (NType t) (def_nodes d)).
  { intros H. apply in_flat_map in H as (fs & Hfs & Ht). apply (fields_nodes_in d fs _ Hfs). destruct fs as [o c l|o c l|]; cbn [types_in fields_nodes] in *; [| |destruct Ht].
    - apply in_map_iff in Ht as (e & <- & He). apply in_flat_map. exists e. split; [exact He|]. unfold nfield_nodes. apply in_app_iff. right. right. apply in_app_iff. left. apply type_node.
    - apply in_map_iff in Ht as (e & <- & He). apply in_flat_map. exists e. split; [exact He|]. right. apply in_app_iff. left. apply type_node. }
  intros H. destruct d as [c kw m o e ds|c a kw m g fs'|c a kw m g o e vs|c kw m g e t' q|c kw m k t' e w vl q|kw segs el q]; try (exact (Hf H)).
  - destruct H as [->|[]]. cbn [def_nodes]. apply in_app_iff. right. apply type_node.
  - destruct H as [->|[]]. cbn [def_nodes]. apply in_app_iff. right. apply type_node.
Qed.
Lemma report_points e p : report s e p -> points src e p.
Proof.
  destruct 1 as [d ids i v w Hd Ha Hr|d o c l ids i f g Hd Hf Ha Hr|d o c l ids i j k f g Hd Hf Ha Hr|d m n Hd Hr|d o c l m n Hd Hf Hr|ds m n Hds Hr|d m n Hd Hr|d n Hd Hn Hu|d t ts a Hd Ht Hp Hsz]; cbn [points].
  - assert (H : forall x, In (i, x) (combine ids (variants_of d)) -> variant_at src (id_at (lv_id x) (lv_loc x)) i (ln_text (lv_name x))).
    { intros x Hx. pose proof (in_combine_r _ _ _ _ Hx) as Hv. destruct (lv_id x) as [[n l]|] eqn:E; cbn [id_at snd].
      - left. assert (i = n) as ->. { eapply (assigns_explicit (fun v => er_id (lv_id v))); [exact Ha|exact Hx|]. cbv beta. rewrite E. reflexivity. }
        apply (node_here d (NId (n, l)) Hd). apply (variant_nodes_in d x); [exact Hv|]. unfold variant_nodes. apply in_app_iff. right. right. apply in_app_iff. right. rewrite E. left. reflexivity.
      - right. exists (er_fields (lv_fields x)). assert (Hn : node_ok src (NVariant x)). { apply (node_here d _ Hd). apply (variant_nodes_in d x); [exact Hv|]. unfold variant_nodes. apply in_app_iff. right. left. reflexivity. }
        cbn [node_ok] in Hn. rewrite E in Hn. exact Hn. }
    destruct (first_repeat_in _ _ _ _ Hr) as [H1 H2]. split; apply H; assumption.
  - assert (H : forall x, In (i, x) (combine ids (map fst (p_values l))) -> named_at src (id_at (lnf_id x) (lnf_loc x)) i (ln_text (lnf_name x))).
    { intros x Hx. pose proof (in_combine_r _ _ _ _ Hx) as Hv.
      assert (Hnd : forall n, In n (nfield_nodes x) -> node_ok src n). { intros n Hn. apply (node_here d n Hd). apply (fields_nodes_in d _ n Hf). cbn [fields_nodes]. apply in_map_iff in Hv as (y & <- & Hy). apply in_flat_map. eauto. }
      destruct (lnf_id x) as [[n q]|] eqn:E; cbn [id_at snd].
      - left. assert (i = n) as ->. { eapply (assigns_explicit (fun v => er_id (lnf_id v))); [rewrite map_map; exact Ha|exact Hx|]. cbv beta. rewrite E. reflexivity. }
        apply (Hnd (NId (n, q))). unfold nfield_nodes. apply in_app_iff. right. right. apply in_app_iff. right. rewrite E. left. reflexivity.
      - right. exists (er_ty (lnf_ty x)). assert (Hn : node_ok src (NNamed x)). { apply Hnd. unfold nfield_nodes. apply in_app_iff. right. left. reflexivity. } cbn [node_ok] in Hn. rewrite E in Hn. exact Hn. }
    destruct (first_repeat_in _ _ _ _ Hr) as [H1 H2]. split; apply H; assumption.
  - assert (H : forall j x, In (i, (j, x)) (combine ids (combine (seq 1 (p_len l)) (map fst (p_values l)))) -> unnamed_at src (id_at (luf_id x) (luf_loc x)) i).
    { intros j' x Hx. pose proof (in_combine_r _ _ _ _ (in_combine_r _ _ _ _ Hx)) as Hv.
      assert (Hnd : forall n, In n (ufield_nodes x) -> node_ok src n). { intros n Hn. apply (node_here d n Hd). apply (fields_nodes_in d _ n Hf). cbn [fields_nodes]. apply in_map_iff in Hv as (y & <- & Hy). apply in_flat_map. eauto. }
      assert (Ha' : assigns (map (fun e : nat * lufield => er_id (luf_id (snd e))) (combine (seq 1 (p_len l)) (map fst (p_values l)))) ids).
      { replace (map (fun e : nat * lufield => er_id (luf_id (snd e))) (combine (seq 1 (p_len l)) (map fst (p_values l)))) with (map (fun f => er_id (luf_id (fst f))) (p_values l)); [exact Ha|].
        rewrite <- (map_map fst (fun f => er_id (luf_id f)) (p_values l)), <- (map_map snd (fun f => er_id (luf_id f))). f_equal. rewrite p_len_values, <- (map_length fst). clear. generalize (map fst (p_values l)) as xs. generalize 1%nat.
        intros k xs. revert k. induction xs as [|x xs IH]; intros k; [reflexivity|]. cbn [length seq combine map snd]. rewrite <- IH. reflexivity. }
      destruct (luf_id x) as [[n q]|] eqn:E; cbn [id_at snd].
      - left. assert (i = n) as ->. { eapply (assigns_explicit (fun e : nat * lufield => er_id (luf_id (snd e)))); [exact Ha'|exact Hx|]. cbn [snd]. rewrite E. reflexivity. }
        apply (Hnd (NId (n, q))). right. apply in_app_iff. right. rewrite E. left. reflexivity.
      - right. exists (er_ty (luf_ty x)). assert (Hn : node_ok src (NUnnamed x)) by (apply Hnd; left; reflexivity). cbn [node_ok] in Hn. unfold er_ufield in Hn. rewrite E in Hn. exact Hn. }
    destruct (first_repeat_in _ _ _ _ Hr) as [H1 H2]. split; eapply H; eassumption.
  - exact (name_pair _ m n (subs_trans _ _ _ (subs_variants d) (subs_schema s d Hd)) Hr).
  - exact (name_pair _ m n (subs_trans _ _ _ (subs_named d _ _ _ Hf) (subs_schema s d Hd)) Hr).
  - exact (name_pair _ m n (subs_bodies s ds Hds) Hr).
  - exact (name_pair _ m n (subs_trans _ _ _ (subs_params d) (subs_schema s d Hd)) Hr).
  - apply (subs_in _ _ _ (subs_params d)) in Hn. apply (subs_in _ _ _ (subs_schema s d Hd)) in Hn. apply in_map_iff in Hn as (w & <- & Hw). rewrite Forall_forall in Hnames. exact (Hnames w Hw).
  - destruct (node_here d (NType t) Hd (types_node d t Ht)) as (fuel & H). exists fuel, (er_ty t), ts. split; [exact H|]. split; [exact Hp|]. destruct a; lia.
Qed.
End Points.
