(** Proofs about the text on documentation pages: it is what the schema printer writes for the
    definition with all ids explicit. *)
From Verif Require Import Base Syntax Parser Printer ParserSpec ParserTotal ParserRound ParserRound2 ParserRound3 PropParser
  Compiler CompilerSpec CompilerClaims CompilerProofs CompilerMore GenProofs DocText.
Require Import ZifyN ZifyBool.
Require Coq.Strings.String.
Import Coq.Strings.String.StringSyntax.
Local Open Scope N_scope.

(** * Lists *)
Lemma join_snoc sep (l : list str) x : join sep (l ++ [x]) = concat (map (fun v => v ++ sep) l) ++ x.
Proof.
  induction l as [|a l IH]; [reflexivity|]. cbn [map concat]. rewrite <- !app_assoc, <- IH.
  destruct l; reflexivity.
Qed.
Lemma p_snoc {A} (l : list A) : l <> [] -> forall b, exists p, p_values p = l /\ p_trail p = b.
Proof. intros H b. destruct (exists_last H) as (l' & a & ->). exists (Punct l' a b). split; reflexivity. Qed.
Lemma surround_flat {A} o c (pr : A -> str) p : p_trail p = false ->
  pr_surround o c pr 0 false p = [o] ++ join (tx ", ") (map pr (p_values p)) ++ [c].
Proof.
  destruct p as [l x b]. cbn [p_trail]. intros ->. unfold pr_surround, p_values. cbn [p_init p_last p_trail].
  rewrite map_app. cbn [map]. rewrite join_snoc, map_map. cbn [indent app]. rewrite <- app_assoc. reflexivity.
Qed.
Lemma surround_lines {A} o c (pr : A -> str) level p : p_trail p = true ->
  pr_surround o c pr level true p = [o] ++ [10] ++ concat (map (fun v => pr v ++ [44] ++ [10]) (p_values p)) ++ indent level ++ [c].
Proof.
  destruct p as [l x b]. cbn [p_trail]. intros ->. unfold pr_surround, p_values. cbn [p_init p_last p_trail].
  rewrite map_app, concat_app. cbn [map concat]. rewrite app_nil_r, <- !app_assoc. reflexivity.
Qed.

(** * Types *)
(** A type without trailing commas. *)
Fixpoint norm (t : pty) : pty :=
  match t with
  | PPrim p => PPrim p
  | PVec t => PVec (norm t)
  | PHashMap k v => PHashMap (norm k) (norm v)
  | PHashSet t => PHashSet (norm t)
  | POption t => POption (norm t)
  | PNonZero t => PNonZero (norm t)
  | PTuple (Punct l x _) => PTuple (Punct (map norm l) (norm x) false)
  | PArray t n => PArray (norm t) n
  | PExternal p n None => PExternal p n None
  | PExternal p n (Some (Punct l x _)) => PExternal p n (Some (Punct (map norm l) (norm x) false))
  end.
Lemma all_app {A} (P : A -> Prop) l x : (forall t, In t (l ++ [x]) -> P t) -> (forall t, In t l -> P t) /\ P x.
Proof. intros H. split; [intros t Ht; apply H, in_or_app; auto|apply H, in_or_app; right; left; reflexivity]. Qed.
Lemma shown_type t : dp_type (simplify_type t) = pr_type (norm t).
Proof.
  induction t as [p|t IH|k v IHk IHv|t IH|t IH|t IH|[l x b] IH|t n IH|path name|path name [l x b] IH] using pty_ind2;
    cbn [norm simplify_type dp_type pr_type]; try reflexivity; rewrite ?IH, ?IHk, ?IHv; try reflexivity.
  - apply (all_app _ l x) in IH as [Hl Hx]. rewrite map_app. cbn [map]. rewrite join_snoc, !map_map, Hx, <- !app_assoc.
    f_equal. f_equal. f_equal. apply map_ext_in. intros t Ht. rewrite Hl by exact Ht. reflexivity.
  - apply (all_app _ l x) in IH as [Hl Hx]. f_equal. f_equal.
    replace (match map simplify_type l ++ [simplify_type x] with [] => [] | _ :: _ => tx "<" ++ join (tx ", ") (map dp_type (map simplify_type l ++ [simplify_type x])) ++ tx ">" end)
      with (tx "<" ++ join (tx ", ") (map dp_type (map simplify_type l ++ [simplify_type x])) ++ tx ">") by (destruct l; reflexivity).
    rewrite map_app. cbn [map]. rewrite join_snoc, !map_map, Hx, <- !app_assoc.
    f_equal. f_equal. f_equal. apply map_ext_in. intros t Ht. rewrite Hl by exact Ht. reflexivity.
Qed.
Lemma norm_same t : simplify_type (norm t) = simplify_type t.
Proof.
  induction t as [p|t IH|k v IHk IHv|t IH|t IH|t IH|[l x b] IH|t n IH|path name|path name [l x b] IH] using pty_ind2;
    cbn [norm]; try (cbn [simplify_type]; rewrite ?IH, ?IHk, ?IHv; reflexivity).
  all: apply (all_app _ l x) in IH as [Hl Hx]; cbn [simplify_type]; rewrite Hx, map_map; do 2 f_equal; apply map_ext_in, Hl.
Qed.
Lemma norm_ok t : TypeOk t -> TypeOk (norm t).
Proof.
  induction t as [p|t IH|k v IHk IHv|t IH|t IH|t IH|[l x b] IH|t n IH|path name|path name [l x b] IH] using pty_ind2;
    cbn [norm TypeOk]; try tauto.
  - apply (all_app _ l x) in IH as [Hl Hx]. rewrite <- !Forall_fold, !Forall_forall. intros [H1 H2]. split; [|auto].
    intros t Ht. apply in_map_iff in Ht as (u & <- & Hu). auto.
  - apply (all_app _ l x) in IH as [Hl Hx]. rewrite <- !(Forall_fold TypeOk), !(Forall_forall TypeOk). intros (H0 & H3 & H1 & H2). repeat split; auto.
    intros t Ht. apply in_map_iff in Ht as (u & <- & Hu). auto.
Qed.
Lemma norm_shadow t : NoShadow t -> NoShadow (norm t).
Proof.
  induction t as [p|t IH|k v IHk IHv|t IH|t IH|t IH|[l x b] IH|t n IH|path name|path name [l x b] IH] using pty_ind2;
    cbn [norm NoShadow]; try tauto.
  - apply (all_app _ l x) in IH as [Hl Hx]. rewrite <- !Forall_fold, !Forall_forall. intros [H1 H2]. split; [|auto].
    intros t Ht. apply in_map_iff in Ht as (u & <- & Hu). auto.
  - apply (all_app _ l x) in IH as [Hl Hx]. rewrite <- !(Forall_fold NoShadow), !(Forall_forall NoShadow). intros (H0 & H1 & H2). repeat split; auto.
    intros t Ht. apply in_map_iff in Ht as (u & <- & Hu). auto.
Qed.

(** * Ids *)
Lemma draw_again chk : forall decl st ids, draw chk st decl = Some ids -> forall st', draw chk st' (map Some ids) = Some ids.
Proof.
  induction decl as [|d decl IH]; intros st ids H st'; cbn [draw] in H; [injection H as <-; reflexivity|].
  destruct (gen_next chk st d) as [[i st1]|] eqn:E; [|discriminate].
  destruct (draw chk st1 decl) as [l|] eqn:El; [|discriminate]. cbn [option_map] in H. injection H as <-.
  cbn [map draw]. assert (E' : gen_next chk st' (Some i) = Some (i, st1)).
  { unfold gen_next in *. destruct (_ =? u32_max) eqn:Em in E.
    - destruct chk; [discriminate|]. injection E as E1 E2. rewrite <- E1, Em, E2. reflexivity.
    - injection E as E1 E2. rewrite <- E1, Em, E2. reflexivity. }
  rewrite E'. rewrite (IH _ _ El). reflexivity.
Qed.
Lemma gen_bound chk st d i st' : st < 2 ^ 32 -> (forall e, d = Some e -> e < 2 ^ 32) -> gen_next chk st d = Some (i, st') -> i < 2 ^ 32 /\ st' < 2 ^ 32.
Proof.
  intros Hst Hd H. destruct (gen_next_spec chk st d Hst Hd) as [Hi [[E _]|[E _]]]; rewrite E in H; [|discriminate].
  injection H as <- <-. split; [exact Hi|]. apply N.mod_lt. discriminate.
Qed.
Lemma draw_bound chk : forall decl st ids, st < 2 ^ 32 -> u32_ids decl -> draw chk st decl = Some ids -> Forall (fun i => i < 2 ^ 32) ids /\ length ids = length decl.
Proof.
  induction decl as [|d decl IH]; intros st ids Hst Hu H; cbn [draw] in H; [injection H as <-; split; [constructor|reflexivity]|].
  destruct (gen_next chk st d) as [[i st1]|] eqn:E; [|discriminate].
  destruct (draw chk st1 decl) as [l|] eqn:El; [|discriminate]. cbn [option_map] in H. injection H as <-.
  apply gen_bound in E as [E1 E2]; [|exact Hst|intros e ->; apply Hu; left; reflexivity].
  destruct (IH _ _ E2 (u32_cons _ _ Hu) El) as [H1 H2]. split; [constructor; assumption|cbn; rewrite H2; reflexivity].
Qed.

(** * Fields *)
Lemma fields_u32 fs : FieldsOk fs -> u32_ids (field_decls fs).
Proof.
  intros H e He. destruct fs as [p|p|]; cbn [field_decls] in He; [| |destruct He]; cbn [FieldsOk] in H;
    apply in_map_iff in He as (f & E & Hf); rewrite Forall_forall in H; specialize (H f Hf).
  - destruct H as (_ & _ & _ & _ & H). rewrite E in H. exact H.
  - destruct H as (_ & _ & H). rewrite E in H. exact H.
Qed.
Lemma p_ne {A} (p : punct A) : p_values p <> [].
Proof. destruct p as [[|a l] x b]; discriminate. Qed.
Lemma combine_ne {A B} (l : list A) (m : list B) : length l = length m -> l <> [] -> combine l m <> [].
Proof. destruct l, m; try discriminate; congruence. Qed.
Lemma map_ne {A B} (f : A -> B) l : l <> [] -> map f l <> [].
Proof. destruct l; [congruence|discriminate]. Qed.
Lemma combine_map_l {A B C} (f : A -> C) : forall (l : list A) (m : list B), combine (map f l) m = map (fun '(a, b) => (f a, b)) (combine l m).
Proof. induction l as [|a l IH]; intros [|b m]; cbn; try reflexivity. rewrite IH. reflexivity. Qed.
Lemma combine_self {A B C} (f : A * B -> C) : forall (l : list A) (m : list B), length l = length m ->
  combine (map f (combine l m)) m = map (fun '(a, b) => (f (a, b), b)) (combine l m).
Proof. induction l as [|a l IH]; intros [|b m] H; cbn; try reflexivity; try discriminate H. rewrite IH by (cbn in H; lia). reflexivity. Qed.
Lemma snd_combine {A B} : forall (l : list A) (m : list B), length l = length m -> map snd (combine l m) = m.
Proof. induction l as [|a l IH]; intros [|b m] H; cbn; try reflexivity; try discriminate H. rewrite IH by (cbn in H; lia). reflexivity. Qed.

Lemma shown_fields chk level fs ss : (level <= 1)%nat -> FieldsOk fs -> simplify_fields chk fs = Some ss ->
  exists fs', FieldsOk fs' /\ simplify_fields chk fs' = Some (bare_fields ss) /\ dp_fields (indent level) ss = pr_fields level fs'.
Proof.
  intros Hlev Hok H. pose proof (fields_u32 fs Hok) as Hu. destruct fs as [p|p|]; cbn [simplify_fields field_decls FieldsOk] in *.
  - destruct (draw chk 1 (map nf_id (p_values p))) as [ids|] eqn:Ed; [|discriminate]. cbn [option_map] in H. injection H as <-.
    pose proof (draw_bound _ _ 1 _ ltac:(reflexivity) Hu Ed) as [Hb Hlen]. rewrite map_length in Hlen.
    set (mk := fun q : nfield * N => NField [] (nf_name (fst q)) (norm (nf_ty (fst q))) (Some (snd q))).
    destruct (p_snoc (map mk (combine (p_values p) ids)) (map_ne _ _ (combine_ne _ _ (eq_sym Hlen) (p_ne p))) true) as (p' & Ep & Et).
    exists (FNamed p'). cbn [FieldsOk simplify_fields pr_fields]. rewrite Ep. repeat split.
    + apply Forall_map, Forall_forall. intros [f i] Hf. pose proof (in_combine_l _ _ _ _ Hf) as Hf1. pose proof (in_combine_r _ _ _ _ Hf) as Hf2.
      rewrite Forall_forall in Hok, Hb. destruct (Hok f Hf1) as (_ & Hn & Ht & Hs & _). unfold NFieldOk, mk. cbn [fst snd nf_comment nf_name nf_ty nf_id IdOk].
      split; [constructor|]. split; [exact Hn|]. split; [apply norm_ok, Ht|]. split; [apply norm_shadow, Hs|apply Hb, Hf2].
    + assert (Ei : map nf_id (map mk (combine (p_values p) ids)) = map Some ids).
      { rewrite map_map. rewrite <- (snd_combine (p_values p) ids (eq_sym Hlen)) at 2. rewrite map_map. reflexivity. }
      rewrite Ei.
      rewrite (draw_again _ _ _ _ Ed). cbn [option_map]. f_equal. unfold bare_fields. cbn [ss_kind ss_fields]. f_equal.
      rewrite combine_self by (symmetry; exact Hlen). rewrite !map_map. apply map_ext. intros [f i]. unfold bare_field, mk. cbn [fst snd sf_name sf_ty sf_id nf_comment nf_name nf_ty].
      rewrite norm_same. reflexivity.
    + unfold dp_fields. cbn [ss_kind ss_fields]. rewrite surround_lines by exact Et. rewrite Ep, !map_map.
      match goal with |- tx " {" ++ [10] ++ concat (map ?G _) ++ _ ++ _ = [32] ++ [123] ++ [10] ++ concat (map ?H _) ++ _ => assert (E : forall x, G x = H x) end.
      { intros [f i]. unfold mk, dp_field, pr_nfield. cbn [fst snd sf_name sf_ty sf_id nf_comment nf_name nf_ty nf_id pr_id pr_comment map concat app].
        rewrite shown_type. destruct level as [|[|level]]; [| |lia]; cbn [indent]; rewrite <- !app_assoc; reflexivity. }
      rewrite (map_ext _ _ E). reflexivity.
  - destruct (draw chk 1 (map uf_id (p_values p))) as [ids|] eqn:Ed; [|discriminate]. cbn [option_map] in H. injection H as <-.
    pose proof (draw_bound _ _ 1 _ ltac:(reflexivity) Hu Ed) as [Hb Hlen]. rewrite map_length in Hlen.
    set (mk := fun q : ufield * N => UField (norm (uf_ty (fst q))) (Some (snd q))).
    destruct (p_snoc (map mk (combine (p_values p) ids)) (map_ne _ _ (combine_ne _ _ (eq_sym Hlen) (p_ne p))) false) as (p' & Ep & Et).
    assert (El : p_len p' = p_len p).
    { rewrite !p_len_values. rewrite Ep, map_length, combine_length, Hlen. lia. }
    assert (Hl2 : length (seq 0 (p_len p)) = length (combine (p_values p) ids)).
    { rewrite seq_length, combine_length, Hlen, Nat.min_id, p_len_values. reflexivity. }
    exists (FUnnamed p'). cbn [FieldsOk simplify_fields pr_fields]. rewrite Ep, El. repeat split.
    + apply Forall_map, Forall_forall. intros [f i] Hf. pose proof (in_combine_l _ _ _ _ Hf) as Hf1. pose proof (in_combine_r _ _ _ _ Hf) as Hf2.
      rewrite Forall_forall in Hok, Hb. destruct (Hok f Hf1) as (Ht & Hs & _). unfold UFieldOk, mk. cbn [fst snd uf_ty uf_id IdOk].
      split; [apply norm_ok, Ht|]. split; [apply norm_shadow, Hs|apply Hb, Hf2].
    + assert (Ei : map uf_id (map mk (combine (p_values p) ids)) = map Some ids).
      { rewrite map_map. rewrite <- (snd_combine (p_values p) ids (eq_sym Hlen)) at 2. rewrite map_map. reflexivity. }
      rewrite Ei.
      rewrite (draw_again _ _ _ _ Ed). cbn [option_map]. f_equal. unfold bare_fields. cbn [ss_kind ss_fields]. f_equal.
      rewrite combine_self by (symmetry; exact Hlen). rewrite map_map.
      generalize (combine (p_values p) ids) as C. generalize (seq 0 (p_len p)) as S0. induction S0 as [|k S0 IH]; intros [|[f i] C]; try reflexivity.
      cbn [map combine]. f_equal; [|apply IH]. unfold bare_field, mk. cbn [fst snd sf_name sf_ty sf_id uf_ty]. rewrite norm_same. reflexivity.
    + unfold dp_fields. cbn [ss_kind ss_fields]. rewrite surround_flat by exact Et. rewrite Ep, !map_map.
      change [40] with (tx "("). change [41] with (tx ")"). do 3 f_equal.
      rewrite (map_ext _ (fun q => dp_field SKUnnamed (SField [] [] (simplify_type (uf_ty (fst (snd q)))) (snd (snd q))))) by (intros [k [f i]]; reflexivity).
      rewrite <- (map_map snd (fun q : ufield * N => dp_field SKUnnamed (SField [] [] (simplify_type (uf_ty (fst q))) (snd q)))), snd_combine by exact Hl2.
      apply map_ext. intros [f i]. unfold mk, dp_field, pr_ufield. cbn [fst snd sf_ty sf_id uf_ty uf_id pr_id]. rewrite shown_type. reflexivity.
  - injection H as <-. exists FUnit. repeat split.
Qed.

(** * Type parameters *)
Lemma shown_generics g : GenericsOk g -> exists g', GenericsOk g' /\ simplify_generics g' = simplify_generics g /\ dp_generics (simplify_generics g) = pr_generics g'.
Proof.
  intros H. destruct g as [p|]; [|exists None; repeat split].
  destruct (p_snoc (p_values p) (p_ne p) false) as (p' & Ep & Et). exists (Some p'). cbn [GenericsOk simplify_generics pr_generics] in *.
  rewrite Ep. repeat split; [exact H|]. rewrite surround_flat by exact Et. rewrite map_id, Ep. unfold dp_generics.
  destruct (p_values p) eqn:E; [exfalso; exact (p_ne p E)|reflexivity].
Qed.

(** * Variants *)
Lemma shown_variants chk : forall l st vs, st < 2 ^ 32 -> Forall VariantOk l -> simplify_variants chk st l = Some vs ->
  exists l', length l' = length l /\ Forall VariantOk l' /\ (forall st', simplify_variants chk st' l' = Some (map bare_variant vs))
    /\ concat (map dp_variant vs) = concat (map (fun v => pr_variant 1 v ++ [44] ++ [10]) l').
Proof.
  induction l as [|v l IH]; intros st vs Hst Hok H; cbn [simplify_variants] in H.
  - injection H as <-. exists []. repeat split. constructor.
  - inversion Hok as [|? ? (Hc & Hn & Hf & Hi) Hok']; subst.
    destruct (simplify_fields chk (pv_fields v)) as [ss|] eqn:Ef; [|discriminate].
    destruct (gen_next chk st (pv_id v)) as [[i st1]|] eqn:Eg; [|discriminate].
    destruct (simplify_variants chk st1 l) as [ws|] eqn:Er; [|discriminate]. cbn [option_map] in H. injection H as <-.
    pose proof (gen_bound _ _ _ _ _ Hst (fun e E => ltac:(rewrite E in Hi; exact Hi)) Eg) as [Hib Hst1].
    destruct (IH _ _ Hst1 Hok' Er) as (l' & Hl & Hok2 & Hs & Ht).
    destruct (shown_fields chk 1 _ _ (le_n 1) Hf Ef) as (fs' & Hf1 & Hf2 & Hf3).
    exists (PVariant [] (pv_name v) fs' (Some i) :: l'). split; [cbn; rewrite Hl; reflexivity|]. split; [|split].
    + constructor; [|exact Hok2]. split; [constructor|]. split; [exact Hn|]. split; [exact Hf1|exact Hib].
    + intros st'. cbn [simplify_variants pv_fields pv_id pv_comment pv_name]. rewrite Hf2.
      assert (E' : gen_next chk st' (Some i) = Some (i, st1)).
      { unfold gen_next in *. destruct (_ =? u32_max) eqn:Em in Eg.
        - destruct chk; [discriminate|]. injection Eg as E1 E2. rewrite <- E1, Em, E2. reflexivity.
        - injection Eg as E1 E2. rewrite <- E1, Em, E2. reflexivity. }
      rewrite E', Hs. reflexivity.
    + cbn [map concat]. rewrite Ht. f_equal. unfold dp_variant, pr_variant. cbn [sv_name sv_fields sv_id pv_comment pv_name pv_fields pv_id pr_comment map concat app indent pr_id].
      change (tx "    ") with (indent 1) at 2. rewrite Hf3. cbn [indent app]. rewrite <- !app_assoc. reflexivity.
Qed.

Lemma some_inj {A} (a b : A) : Some a = Some b -> a = b.
Proof. congruence. Qed.

(** * Definitions *)
Section Defs.
Context {F : Type}.
Variable parse_f64 : str -> option F.
Variable fmt_f64 : F -> str.
Variable esc_u : N -> bool.

Definition own_lit (d : sdef F) : list (lit F) := match d with SConst _ _ _ v => [v] | _ => [] end.

Lemma bare_schema chk (e : pdef F) d : simplify_definition chk e = Some d -> simplify_schema chk (PSchema [] [e]) = Some ([], [d]).
Proof. intros H. unfold simplify_schema. cbn [ps_comment ps_defs all_opt]. rewrite H. reflexivity. Qed.

Lemma shown_def chk (e : pdef F) d t : DefOk e -> simplify_definition chk e = Some d -> shown_text fmt_f64 esc_u d = Some t ->
  Forall (Reprintable fmt_f64 parse_f64) (own_lit d) ->
  exists s, schema_parse parse_f64 (t ++ [10]) = Some s /\ simplify_schema chk s = Some ([], [bare d]).
Proof.
  intros Hok H Ht Hl. destruct e as [c n ds|c a n g fs|c a n g vs|c n g ty|c n ty v|segs el]; cbn [simplify_definition DefOk] in *.
  - destruct (all_opt _ ds); [|discriminate]. cbn [option_map] in H. injection H as <-. discriminate.
  - destruct Hok as (_ & _ & Hn & Hg & Hf). destruct (simplify_fields chk fs) as [ss|] eqn:Ef; [|discriminate]. cbn [option_map] in H. injection H as <-.
    destruct (shown_generics g Hg) as (g' & Hg1 & Hg2 & Hg3). destruct (shown_fields chk 0 _ _ ltac:(lia) Hf Ef) as (fs' & Hf1 & Hf2 & Hf3).
    apply some_inj in Ht. rewrite <- Ht. clear Ht t. exists (PSchema [] [PStruct [] [] n g' fs']). split.
    + rewrite Hg3. change (@nil N) with (indent 0) at 1. rewrite Hf3.
      replace ((tx "struct " ++ n ++ pr_generics g' ++ pr_fields 0 fs') ++ [10]) with (pr_def fmt_f64 esc_u 0 (PStruct [] [] n g' fs'))
        by (cbn [pr_def pr_comment pr_attributes map concat app indent]; rewrite <- !app_assoc; reflexivity).
      apply one_def; [|constructor]. cbn [DefOk]. repeat split; try assumption; constructor.
    + apply bare_schema. cbn [simplify_definition bare]. rewrite Hf2, Hg2. reflexivity.
  - destruct Hok as (_ & _ & Hn & Hg & Hv). destruct (simplify_variants chk 1 (p_values vs)) as [ws|] eqn:Ev; [|discriminate]. cbn [option_map] in H. injection H as <-.
    destruct (shown_generics g Hg) as (g' & Hg1 & Hg2 & Hg3). destruct (shown_variants chk _ 1 _ ltac:(reflexivity) Hv Ev) as (l' & Hl1 & Hv1 & Hv2 & Hv3).
    assert (Hne : l' <> []) by (intros ->; cbn in Hl1; unfold p_values in Hl1; rewrite app_length in Hl1; cbn in Hl1; lia).
    destruct (p_snoc l' Hne true) as (p' & Ep & Et).
    apply some_inj in Ht. rewrite <- Ht. clear Ht t. exists (PSchema [] [PEnum [] [] n g' p']). split.
    + rewrite Hg3, Hv3.
      replace ((tx "enum " ++ n ++ pr_generics g' ++ tx " {" ++ [10] ++ concat (map (fun v => pr_variant 1 v ++ [44] ++ [10]) l') ++ tx "}") ++ [10])
        with (pr_def fmt_f64 esc_u 0 (PEnum [] [] n g' p')).
      2:{ cbn [pr_def pr_comment pr_attributes map concat app indent]. rewrite surround_lines by exact Et. rewrite Ep. cbn [indent]. rewrite <- !app_assoc.
          cbn [app]. rewrite <- !app_assoc. reflexivity. }
      apply one_def; [|constructor]. cbn [DefOk]. rewrite Ep. repeat split; try assumption; constructor.
    + apply bare_schema. cbn [simplify_definition bare]. rewrite Ep, Hv2, Hg2. reflexivity.
  - destruct Hok as (_ & Hn & Hg & Hty & Hsh). injection H as <-. destruct (shown_generics g Hg) as (g' & Hg1 & Hg2 & Hg3).
    apply some_inj in Ht. rewrite <- Ht. clear Ht t. exists (PSchema [] [PAlias [] n g' (norm ty)]). split.
    + rewrite Hg3, shown_type.
      replace ((tx "type " ++ n ++ pr_generics g' ++ tx " = " ++ pr_type (norm ty) ++ tx ";") ++ [10]) with (pr_schema fmt_f64 esc_u (PSchema [] [PAlias [] n g' (norm ty)]))
        by (unfold pr_schema; cbn [ps_comment ps_defs pr_def pr_comment pr_attributes map concat app indent]; rewrite <- !app_assoc; reflexivity).
      apply schema_print; [|constructor]. split; [constructor|]. constructor; [|constructor]. cbn [DefOk]. repeat split; try assumption; try constructor; [apply norm_ok|apply norm_shadow]; assumption.
    + apply bare_schema. cbn [simplify_definition bare]. rewrite norm_same, Hg2. reflexivity.
  - destruct Hok as (_ & Hn & Hty & Hsh & Hv). injection H as <-.
    apply some_inj in Ht. rewrite <- Ht. clear Ht t. exists (PSchema [] [PConst [] n (norm ty) v]). split.
    + rewrite shown_type.
      replace ((tx "const " ++ n ++ tx ": " ++ pr_type (norm ty) ++ tx " = " ++ pr_literal fmt_f64 esc_u v ++ tx ";") ++ [10]) with (pr_schema fmt_f64 esc_u (PSchema [] [PConst [] n (norm ty) v]))
        by (unfold pr_schema; cbn [ps_comment ps_defs pr_def pr_comment pr_attributes map concat app indent]; rewrite <- !app_assoc; reflexivity).
      apply schema_print.
      * split; [constructor|]. constructor; [|constructor]. cbn [DefOk]. repeat split; try assumption; try constructor; [apply norm_ok|apply norm_shadow]; assumption.
      * cbn [flat_map schema_lits def_lits ps_defs app own_lit] in *. exact Hl.
    + apply bare_schema. cbn [simplify_definition bare]. rewrite norm_same. reflexivity.
  - injection H as <-. discriminate.
Qed.

Lemma within_def chk (ds : list (pdef F)) : forall defs : list (sdef F), Forall DefOk ds -> Forall2 (fun e d => simplify_definition chk e = Some d) ds defs ->
  forall d, Within d defs -> exists e, DefOk e /\ simplify_definition chk e = Some d.
Proof.
  intros defs Hok H2 d Hw. revert ds Hok H2. induction Hw as [defs Hin|c n sub defs Hin Hw IH]; intros ds Hok H2.
  - clear -Hok H2 Hin. induction H2 as [|e x ds defs He H2 IH]; [destruct Hin|]. inversion Hok; subst. destruct Hin as [<-|Hin]; [exists e; auto|auto].
  - assert (G : exists e, DefOk e /\ simplify_definition chk e = Some (SModule c n sub)).
    { clear -Hok H2 Hin. induction H2 as [|e x ds defs He H2 IH]; [destruct Hin|]. inversion Hok; subst. destruct Hin as [->|Hin]; [exists e; auto|auto]. }
    destruct G as (e & He & Hs). destruct e as [c' n' es|? ? ? ? fs|? ? ? ? vs| | |]; cbn [simplify_definition DefOk] in *; try discriminate.
    + destruct (all_opt (simplify_definition chk) es) as [sub'|] eqn:Es; [|discriminate]. cbn [option_map] in Hs. injection Hs as _ _ ->.
      destruct He as (_ & _ & He). apply Forall_fold in He. apply (IH es He). apply all_opt_some, Es.
    + destruct (simplify_fields chk fs); discriminate.
    + destruct (simplify_variants chk 1 (p_values vs)); discriminate.
Qed.
End Defs.
