(** Simplification and the code generator's panics (C28, C33, C34). *)
From Verif Require Import Base Syntax Compiler CompilerSpec CompilerClaims CompilerProofs CompilerMore.
Local Open Scope N_scope.

Lemma Forall2_map_r {A B C} (R : A -> B -> Prop) (l : list C) (f : C -> A) (g : C -> B) :
  (forall c, In c l -> R (f c) (g c)) -> Forall2 R (map f l) (map g l).
Proof.
  induction l as [|c l IH]; intros H; cbn; constructor; [apply H; left; reflexivity|].
  apply IH. intros x Hx. apply H. right. exact Hx.
Qed.
Lemma simplify_tuple ts : simplify_type (PTuple ts) = STuple (map simplify_type (p_values ts)).
Proof. destruct ts as [l x b]. cbn [simplify_type]. unfold p_values. cbn [p_init p_last]. rewrite map_app. reflexivity. Qed.
Lemma simplify_external p n ts : simplify_type (PExternal p n (Some ts)) = SExternal p n (map simplify_type (p_values ts)).
Proof. destruct ts as [l x b]. cbn [simplify_type]. unfold p_values. cbn [p_init p_last]. rewrite map_app. reflexivity. Qed.

Lemma simplify_type_same t : same_type t (simplify_type t).
Proof.
  induction t as [p|t IH|k v IHk IHv|t IH|t IH|t IH|ts IH|t n IH|path name|path name ts IH] using pty_ind2;
    rewrite ?simplify_tuple, ?simplify_external; try (constructor; assumption).
  - constructor. rewrite <- (map_id (p_values ts)) at 1. apply Forall2_map_r. exact IH.
  - constructor. rewrite <- (map_id (p_values ts)) at 1. apply Forall2_map_r. exact IH.
Qed.

Lemma map_combine_fst {A B C} (f : A -> C) (l : list A) (m : list B) : length l = length m ->
  map (fun p => f (fst p)) (combine l m) = map f l.
Proof. intros H. rewrite <- (map_map fst f), map_fst_combine by exact H. reflexivity. Qed.

Lemma simplify_fields_compiled chk fs ss : u32_ids (field_decls fs) -> simplify_fields chk fs = Some ss -> compiled_fields fs ss.
Proof.
  intros Hu H. pose proof (simplify_fields_ids chk fs _ Hu (assigns_ids_from _)) as Hids. rewrite H in Hids.
  destruct Hids as [Hids _]. unfold sids in Hids.
  split; [rewrite Hids; apply assigns_ids_from|].
  destruct fs as [l|l|]; cbn [simplify_fields field_types field_decls] in *.
  - pose proof (draw_spec chk (map nf_id (p_values l)) 1 eq_refl Hu) as Hd.
    destruct (draw chk 1 _) as [ids|]; [|discriminate]. destruct Hd as [Hd _]. cbn [option_map] in H. injection H as <-.
    assert (Hl : length (p_values l) = length ids) by (rewrite Hd, ids_from_length, map_length; reflexivity).
    cbn [ss_fields ss_kind]. rewrite !map_map.
    split; [|split; [reflexivity|split]].
    + rewrite (map_ext _ (fun p => simplify_type (nf_ty (fst p)))) by (intros [f i]; reflexivity).
      rewrite (map_combine_fst (fun f => simplify_type (nf_ty f))) by exact Hl.
      apply Forall2_map_r. intros f _. apply simplify_type_same.
    + rewrite (map_ext _ (fun p => nf_name (fst p))) by (intros [f i]; reflexivity).
      apply (map_combine_fst nf_name). exact Hl.
    + rewrite (map_ext _ (fun p => nf_comment (fst p))) by (intros [f i]; reflexivity).
      apply (map_combine_fst nf_comment). exact Hl.
  - pose proof (draw_spec chk (map uf_id (p_values l)) 1 eq_refl Hu) as Hd.
    destruct (draw chk 1 _) as [ids|]; [|discriminate]. destruct Hd as [Hd _]. cbn [option_map] in H. injection H as <-.
    assert (Hl : length (p_values l) = length ids) by (rewrite Hd, ids_from_length, map_length; reflexivity).
    assert (Hl2 : length (seq 0 (p_len l)) = length (combine (p_values l) ids)).
    { rewrite seq_length, combine_length, <- Hl, Nat.min_id, p_len_values. reflexivity. }
    cbn [ss_fields ss_kind]. rewrite !map_map.
    split; [|split; [reflexivity|split]].
    + rewrite (map_ext _ (fun p => simplify_type (uf_ty (fst (snd p))))) by (intros [k [f i]]; reflexivity).
      rewrite <- (map_map snd (fun q => simplify_type (uf_ty (fst q)))), map_snd_combine by exact Hl2.
      rewrite (map_combine_fst (fun f => simplify_type (uf_ty f))) by exact Hl.
      apply Forall2_map_r. intros f _. apply simplify_type_same.
    + rewrite (map_ext _ (fun p => 110 :: dec_str (N.of_nat (fst p)))) by (intros [k [f i]]; reflexivity).
      apply (map_combine_fst (fun k => 110 :: dec_str (N.of_nat k))). exact Hl2.
    + rewrite (map_ext _ (fun p => (fun _ : nat => @nil str) (fst p))) by (intros [k [f i]]; reflexivity).
      rewrite (map_combine_fst (fun _ : nat => @nil str)) by exact Hl2.
      clear. generalize 0%nat as m. induction (p_len l) as [|k IH]; intros m; [reflexivity|]. cbn. rewrite IH. reflexivity.
  - injection H as <-. cbn. repeat split. constructor.
Qed.

Lemma Forall2_impl_in {A B} (R Q : A -> B -> Prop) l m : (forall a b, In a l -> R a b -> Q a b) -> Forall2 R l m -> Forall2 Q l m.
Proof.
  intros H HF. induction HF as [|a b l m Hab HF IH]; constructor; [apply H; [left; reflexivity|exact Hab]|].
  apply IH. intros x y Hx. apply H. right. exact Hx.
Qed.

Lemma simplify_variants_comment chk : forall l st vs, simplify_variants chk st l = Some vs ->
  Forall2 (fun v s => sv_name s = pv_name v /\ sv_comment s = pv_comment v /\ simplify_fields chk (pv_fields v) = Some (sv_fields s)) l vs.
Proof.
  induction l as [|v l IH]; intros st vs H; cbn [simplify_variants] in H; [injection H as <-; constructor|].
  destruct (simplify_fields chk (pv_fields v)) as [fs|] eqn:Ef; [|discriminate].
  destruct (gen_next chk st (pv_id v)) as [[i st']|]; [|discriminate].
  destruct (simplify_variants chk st' l) as [ws|] eqn:Er; [|discriminate]. cbn [option_map] in H. injection H as <-.
  constructor; [auto|apply (IH _ _ Er)].
Qed.

Section Defs.
Context {F : Type}.
Implicit Types (d : pdef F) (ds : list (pdef F)).

Lemma all_opt_some {A B} (f : A -> option B) l m : all_opt f l = Some m <-> Forall2 (fun a b => f a = Some b) l m.
Proof.
  revert m. induction l as [|a l IH]; intros m; cbn [all_opt].
  - split; [intros H; injection H as <-; constructor|intros H; inversion H; reflexivity].
  - destruct (f a) as [b|] eqn:E.
    + destruct (all_opt f l) as [bs|].
      * split; [intros H; injection H as <-; constructor; [exact E|apply IH; reflexivity]|].
        intros H. inversion H as [|? ? ? ? H1 H2]; subst. apply IH in H2. congruence.
      * split; [discriminate|]. intros H. inversion H as [|? ? ? ? H1 H2]; subst. apply IH in H2. discriminate.
    + split; [discriminate|]. intros H. inversion H; congruence.
Qed.
Lemma all_opt_none {A B} (f : A -> option B) l : all_opt f l = None -> exists a, In a l /\ f a = None.
Proof.
  induction l as [|a l IH]; cbn [all_opt]; [discriminate|]. destruct (f a) as [b|] eqn:E.
  - destruct (all_opt f l); [discriminate|]. intros _. destruct (IH eq_refl) as (x & Hx & H). exists x. split; [right; exact Hx|exact H].
  - intros _. exists a. split; [left; reflexivity|exact E].
Qed.

Lemma simplify_definition_compiled chk d : forall o,
  (forall x decl, below x d -> In decl (id_scopes x) -> u32_ids decl) ->
  simplify_definition chk d = Some o -> compiled d o.
Proof.
  induction d as [c n ds IH|c a n g fs|c a n g vs|c n g t|c n t v|sg el] using pdef_ind2; intros o Hu H; cbn [simplify_definition] in H.
  - destruct (all_opt _ ds) as [os|] eqn:E; [|discriminate]. cbn [option_map] in H. injection H as <-.
    apply all_opt_some in E. constructor. revert E. apply Forall2_impl_in. intros x y Hx. apply (IH x Hx).
    intros z decl Hz. apply Hu. right. exists c, n, ds. split; [reflexivity|].
    destruct Hz as [->|(c' & n' & sub & -> & Hw)]; [constructor; exact Hx|eapply within_module; eassumption].
  - destruct (simplify_fields chk fs) as [ss|] eqn:E; [|discriminate]. cbn [option_map] in H. injection H as <-.
    destruct g; constructor; (apply (simplify_fields_compiled chk); [|exact E]);
      (eapply Hu; [left; reflexivity|left; reflexivity]).
  - destruct (simplify_variants chk 1 (p_values vs)) as [ws|] eqn:E; [|discriminate]. cbn [option_map] in H. injection H as <-.
    assert (Hd : assigns (variant_decls vs) (map sv_id ws)).
    { destruct (simplify_variants_ids chk (p_values vs) 1 ws eq_refl) as (Hi & _); [|exact E|].
      - eapply Hu; [left; reflexivity|left; reflexivity].
      - rewrite Hi. apply assigns_ids_from. }
    pose proof (simplify_variants_comment chk _ _ _ E) as Hc.
    assert (Hc' : Forall2 (fun v s => sv_name s = pv_name v /\ sv_comment s = pv_comment v
                        /\ compiled_fields (pv_fields v) (sv_fields s)) (p_values vs) ws).
    { revert Hc. apply Forall2_impl_in. intros v w Hv (H1 & H2 & H3). split; [exact H1|]. split; [exact H2|].
      apply (simplify_fields_compiled chk); [|exact H3]. eapply Hu; [left; reflexivity|]. right. cbn [field_lists].
      apply in_map, in_map. exact Hv. }
    destruct g; constructor; assumption.
  - injection H as <-. destruct g; constructor; apply simplify_type_same.
  - injection H as <-. constructor. apply simplify_type_same.
  - injection H as <-. constructor.
Qed.

Lemma below_within d ds x : In d ds -> below x d -> within x ds.
Proof. intros Hd [->|(c' & n' & sub & -> & Hw)]; [constructor; exact Hd|eapply within_module; eassumption]. Qed.

Theorem simplify_schema_compiled chk (s : pschema F) c out : u32_defs (ps_defs s) -> simplify_schema chk s = Some (c, out) ->
  c = ps_comment s /\ Forall2 compiled (ps_defs s) out.
Proof.
  intros Hu H. unfold simplify_schema in H. destruct (all_opt _ _) as [os|] eqn:E; [|discriminate].
  cbn [option_map] in H. injection H as <- <-. split; [reflexivity|]. apply all_opt_some in E. revert E.
  apply Forall2_impl_in. intros x y Hx. apply simplify_definition_compiled. intros z decl Hz. apply Hu.
  eapply below_within; eassumption.
Qed.

(** A validated schema can be simplified (with the same arithmetic). *)
Lemma simplify_fields_total chk fs : validate_field_ids chk fs = COk tt -> u32_ids (field_decls fs) ->
  simplify_fields chk fs <> None.
Proof.
  intros Hv Hu H. pose proof (simplify_fields_ids chk fs _ Hu (assigns_ids_from _)) as Hs. rewrite H in Hs.
  destruct Hs as [Hc Hin]. apply (validate_field_ids_ok chk fs _ Hu (assigns_ids_from _)) in Hv as [_ Hv]. exact (Hv Hc Hin).
Qed.
Lemma simplify_variants_total chk : forall l st, st < 2 ^ 32 -> u32_ids (map pv_id l) ->
  (forall v, In v l -> simplify_fields chk (pv_fields v) <> None) ->
  (chk = true -> ~ In u32_max (ids_from st (map pv_id l))) -> simplify_variants chk st l <> None.
Proof.
  induction l as [|v l IH]; intros st Hst Hu Hf Hm; cbn [simplify_variants]; [discriminate|]. cbn [map ids_from] in *.
  destruct (simplify_fields chk (pv_fields v)) as [fs|] eqn:Ef; [|destruct (Hf v (or_introl eq_refl) Ef)].
  destruct (gen_next_spec chk st (pv_id v) Hst) as [Hi Hg]; [intros e He; apply Hu; left; exact He|].
  set (i := match pv_id v with Some e => e | None => st end) in *.
  destruct Hg as [[-> _]|(_ & Hc & Hmax)]; [|exfalso; apply (Hm Hc); left; exact Hmax].
  assert (Hlt : (i + 1) mod 2 ^ 32 < 2 ^ 32) by (apply N.mod_lt; discriminate).
  destruct (simplify_variants chk _ l) as [ws|] eqn:Er; [discriminate|]. exfalso. revert Er. apply IH.
  - exact Hlt.
  - exact (u32_cons _ _ Hu).
  - intros w Hw. apply Hf. right. exact Hw.
  - intros Hc Hin. apply (Hm Hc). right. exact Hin.
Qed.

Lemma simplify_definition_total pick chk d : (forall x, below x d -> own_ok pick chk x) ->
  (forall x decl, below x d -> In decl (id_scopes x) -> u32_ids decl) -> simplify_definition chk d <> None.
Proof.
  induction d as [c n ds IH|c a n g fs|c a n g vs|c n g t|c n t v|sg el] using pdef_ind2; intros Hv Hu; cbn [simplify_definition];
    try discriminate.
  - destruct (all_opt _ ds) as [os|] eqn:E; [discriminate|]. exfalso. apply all_opt_none in E as (d & Hd & He).
    assert (Hb : forall x, below x d -> below x (PModule c n ds)).
    { intros x Hx. right. exists c, n, ds. split; [reflexivity|]. eapply below_within; eassumption. }
    apply (IH d Hd) in He; [contradiction| |].
    + intros x Hx. apply Hv, Hb, Hx.
    + intros x decl Hx. apply Hu, Hb, Hx.
  - destruct (simplify_fields chk fs) as [ss|] eqn:E; [discriminate|]. exfalso.
    destruct (Hv _ (or_introl eq_refl)) as (H1 & _). revert E. apply simplify_fields_total; [exact H1|].
    eapply Hu; [left; reflexivity|left; reflexivity].
  - destruct (simplify_variants chk 1 (p_values vs)) as [ws|] eqn:E; [discriminate|]. exfalso.
    assert (Huv : u32_ids (variant_decls vs)) by (eapply Hu; [left; reflexivity|left; reflexivity]).
    destruct (Hv _ (or_introl eq_refl)) as (H1 & _).
    apply (validate_enum_ids_ok chk vs _ Huv (assigns_ids_from _)) in H1 as (_ & Hm & Hf).
    revert E. apply simplify_variants_total; [reflexivity|exact Huv| |exact Hm].
    intros v Hin. apply simplify_fields_total; [apply Hf; exact Hin|].
    eapply Hu; [left; reflexivity|]. right. cbn [field_lists]. apply in_map, in_map. exact Hin.
Qed.

Theorem simplify_schema_total pick chk (s : pschema F) : u32_defs (ps_defs s) -> validate_schema pick chk s = COk tt ->
  exists c out, simplify_schema chk s = Some (c, out).
Proof.
  intros Hu Hv. apply validate_schema_ok in Hv as [_ Hv]. unfold simplify_schema.
  destruct (all_opt (simplify_definition chk) (ps_defs s)) as [out|] eqn:E; [cbn; eauto|]. exfalso.
  apply all_opt_none in E as (d & Hd & He). revert He. apply (simplify_definition_total pick).
  - intros x Hx. apply Hv. eapply below_within; eassumption.
  - intros x decl Hx. apply Hu. eapply below_within; eassumption.
Qed.

(** * When the generator has code for everything *)
Lemma non_zero_ok_step t : (forall u, t <> PNonZero u) ->
  (non_zero_ok t <-> forall c, In c (children t) -> non_zero_ok c).
Proof.
  intros Hne. split.
  - intros H c Hc u Hp. apply H. apply part_child with c; [reflexivity|assumption|assumption].
  - intros H u Hp. inversion Hp as [Heq|c t1 _ Hc Hp']; subst; [exfalso; eapply Hne; reflexivity|]. exact (H c Hc u Hp').
Qed.
Lemma non_zero_ok_nz t : non_zero_ok (PNonZero t) <-> non_zero_content t /\ non_zero_ok t.
Proof.
  split.
  - intros H. split; [apply H; constructor|]. intros u Hp. apply H. apply part_child with t; [reflexivity|left; reflexivity|exact Hp].
  - intros [H1 H2] u Hp. inversion Hp as [Heq|c t1 _ Hc Hp']; subst; [exact H1|]. destruct Hc as [<-|[]]. apply H2. exact Hp'.
Qed.
Lemma nz_supported_content t : nz_supported (simplify_type t) = true <-> non_zero_content t.
Proof.
  destruct t as [p| | | | | |ts| |? ? [ts|]]; rewrite ?simplify_tuple, ?simplify_external; cbn; try (split; [discriminate|contradiction]); try tauto.
  destruct p; cbn; split; intros H; try reflexivity; try discriminate; try tauto;
    repeat (destruct H as [H|H]; [discriminate|]); contradiction.
Qed.

Lemma forallb_map_in {A B} (f : B -> bool) (g : A -> B) (P : A -> Prop) l :
  (forall a, In a l -> (f (g a) = true <-> P a)) -> (forallb f (map g l) = true <-> forall a, In a l -> P a).
Proof.
  intros H. rewrite forallb_forall. split.
  - intros Hf a Ha. apply (H a Ha), Hf, in_map, Ha.
  - intros Hp b Hb. apply in_map_iff in Hb as (a & <- & Ha). apply (H a Ha), Hp, Ha.
Qed.

Lemma def_type_ok_spec t : def_type_ok (simplify_type t) = true <-> non_zero_ok t.
Proof.
  induction t as [p|t IH|k v IHk IHv|t IH|t IH|t IH|ts IH|t n IH|path name|path name ts IH] using pty_ind2;
    rewrite ?simplify_tuple, ?simplify_external; cbn [simplify_type def_type_ok].
  - split; [intros _ u Hp|reflexivity]. inversion Hp as [Heq|c t1 _ Hc _]; subst. destruct Hc.
  - rewrite (non_zero_ok_step (PVec t)) by discriminate. cbn [children In]. rewrite IH.
    split; [intros H c [<-|[]]; exact H|intros H; apply H; left; reflexivity].
  - rewrite (non_zero_ok_step (PHashMap k v)) by discriminate. cbn [children In]. rewrite andb_true_iff, IHk, IHv.
    split; [intros [H1 H2] c [<-|[<-|[]]]; assumption|intros H; split; apply H; auto].
  - rewrite (non_zero_ok_step (PHashSet t)) by discriminate. cbn [children In]. rewrite IH.
    split; [intros H c [<-|[]]; exact H|intros H; apply H; left; reflexivity].
  - rewrite (non_zero_ok_step (POption t)) by discriminate. cbn [children In]. rewrite IH.
    split; [intros H c [<-|[]]; exact H|intros H; apply H; left; reflexivity].
  - rewrite andb_true_iff, IH, nz_supported_content, non_zero_ok_nz. tauto.
  - rewrite (non_zero_ok_step (PTuple ts)) by discriminate. cbn [children].
    apply (forallb_map_in def_type_ok simplify_type). exact IH.
  - rewrite (non_zero_ok_step (PArray t n)) by discriminate. cbn [children In]. rewrite IH.
    split; [intros H c [<-|[]]; exact H|intros H; apply H; left; reflexivity].
  - split; [intros _ u Hp|reflexivity]. inversion Hp as [Heq|c t1 _ Hc _]; subst. destruct Hc.
  - rewrite (non_zero_ok_step (PExternal path name (Some ts))) by discriminate. cbn [children].
    apply (forallb_map_in def_type_ok simplify_type). exact IH.
Qed.

Lemma code_type_ok_spec t : code_type_ok (simplify_type t) = true <-> non_zero_ok t /\ tuples_ok outside_arguments t.
Proof.
  induction t as [p|t IH|k v IHk IHv|t IH|t IH|t IH|ts IH|t n IH|path name|path name ts IH] using pty_ind2;
    rewrite ?simplify_tuple, ?simplify_external; cbn [simplify_type code_type_ok].
  - split; [intros _|reflexivity]. split; intros u Hp; inversion Hp as [Heq|c t1 _ Hc _]; subst; destruct Hc.
  - rewrite (non_zero_ok_step (PVec t)), (tuples_ok_step _ (PVec t)) by (reflexivity || discriminate). cbn [children In]. rewrite IH.
    split; [intros [H1 H2]; split; intros c [<-|[]]; assumption|intros [H1 H2]; split; [apply H1|apply H2]; left; reflexivity].
  - rewrite (non_zero_ok_step (PHashMap k v)), (tuples_ok_step _ (PHashMap k v)) by (reflexivity || discriminate).
    cbn [children In]. rewrite andb_true_iff, IHk, IHv. split.
    + intros [[H1 H2] [H3 H4]]. split; intros c [<-|[<-|[]]]; assumption.
    + intros [H1 H2]. split; split; auto.
  - rewrite (non_zero_ok_step (PHashSet t)), (tuples_ok_step _ (PHashSet t)) by (reflexivity || discriminate). cbn [children In]. rewrite IH.
    split; [intros [H1 H2]; split; intros c [<-|[]]; assumption|intros [H1 H2]; split; [apply H1|apply H2]; left; reflexivity].
  - rewrite (non_zero_ok_step (POption t)), (tuples_ok_step _ (POption t)) by (reflexivity || discriminate). cbn [children In]. rewrite IH.
    split; [intros [H1 H2]; split; intros c [<-|[]]; assumption|intros [H1 H2]; split; [apply H1|apply H2]; left; reflexivity].
  - rewrite andb_true_iff, IH, nz_supported_content, non_zero_ok_nz.
    rewrite (tuples_ok_step _ (PNonZero t)) by (reflexivity || discriminate). cbn [children In]. split.
    + intros (H1 & H2 & H3). split; [split; assumption|]. intros c [<-|[]]. exact H3.
    + intros ((H1 & H2) & H3). split; [exact H1|]. split; [exact H2|]. apply H3. left. reflexivity.
  - rewrite (non_zero_ok_step (PTuple ts)) by discriminate. cbn [children]. rewrite andb_true_iff.
    rewrite (forallb_map_in code_type_ok simplify_type (fun t => non_zero_ok t /\ tuples_ok outside_arguments t)) by exact IH.
    rewrite map_length, <- p_len_values, andb_true_iff, !Nat.leb_le. split.
    + intros [Ha H]. split; [intros c Hc; apply H; exact Hc|]. intros us Hp.
      inversion Hp as [Heq|c t1 _ Hc Hp']; subst; [exact Ha|]. destruct (H c Hc) as [_ H']. exact (H' us Hp').
    + intros [H1 H2]. split; [apply H2; constructor|]. intros c Hc. split; [apply H1; exact Hc|].
      intros us Hp. apply H2. apply part_child with c; [reflexivity|exact Hc|exact Hp].
  - rewrite (non_zero_ok_step (PArray t n)), (tuples_ok_step _ (PArray t n)) by (reflexivity || discriminate). cbn [children In]. rewrite IH.
    split; [intros [H1 H2]; split; intros c [<-|[]]; assumption|intros [H1 H2]; split; [apply H1|apply H2]; left; reflexivity].
  - split; [intros _|reflexivity]. split; intros u Hp; inversion Hp as [Heq|c t1 _ Hc _]; subst; destruct Hc.
  - assert (Ht : tuples_ok outside_arguments (PExternal path name (Some ts))).
    { intros us Hp. inversion Hp as [Heq|c t1 Hgo Hc Hp']; subst. discriminate Hgo. }
    rewrite (non_zero_ok_step (PExternal path name (Some ts))) by discriminate. cbn [children].
    rewrite (forallb_map_in def_type_ok simplify_type non_zero_ok) by (intros a _; apply def_type_ok_spec). tauto.
Qed.

Lemma const_type_ok_spec t : const_type_ok (simplify_type t) = true <-> const_content t.
Proof.
  destruct t as [p| | | | | |ts| |? ? [ts|]]; rewrite ?simplify_tuple, ?simplify_external; cbn; try (split; [discriminate|contradiction]).
  destruct p; split; intros H; try reflexivity; try discriminate; try (split; discriminate); destruct H; contradiction.
Qed.

(** The source types of simplified fields. *)
Lemma simplify_fields_types chk fs ss : simplify_fields chk fs = Some ss -> map sf_ty (ss_fields ss) = map simplify_type (field_types fs).
Proof.
  assert (Hlen : forall l st ids, draw chk st l = Some ids -> length ids = length l).
  { induction l as [|x l IH]; intros st ids H; cbn [draw] in H; [injection H as <-; reflexivity|].
    destruct (gen_next chk st x) as [[i st']|]; [|discriminate].
    destruct (draw chk st' l) as [js|] eqn:E; [|discriminate]. cbn [option_map] in H. injection H as <-.
    cbn [length]. rewrite (IH _ _ E). reflexivity. }
  destruct fs as [l|l|]; cbn [simplify_fields field_types]; intros H.
  - destruct (draw chk 1 _) as [ids|] eqn:E; [|discriminate]. cbn [option_map] in H. injection H as <-.
    apply Hlen in E. rewrite map_length in E. cbn [ss_fields]. rewrite !map_map.
    rewrite (map_ext _ (fun p => simplify_type (nf_ty (fst p)))) by (intros [f i]; reflexivity).
    apply (map_combine_fst (fun f => simplify_type (nf_ty f))). symmetry. exact E.
  - destruct (draw chk 1 _) as [ids|] eqn:E; [|discriminate]. cbn [option_map] in H. injection H as <-.
    apply Hlen in E. rewrite map_length in E. cbn [ss_fields]. rewrite !map_map.
    assert (Hl2 : length (seq 0 (p_len l)) = length (combine (p_values l) ids)).
    { rewrite seq_length, combine_length, E, Nat.min_id, p_len_values. reflexivity. }
    rewrite (map_ext _ (fun p => simplify_type (uf_ty (fst (snd p))))) by (intros [k [f i]]; reflexivity).
    rewrite <- (map_map snd (fun q => simplify_type (uf_ty (fst q)))), map_snd_combine by exact Hl2.
    apply (map_combine_fst (fun f => simplify_type (uf_ty f))). symmetry. exact E.
  - injection H as <-. reflexivity.
Qed.

Lemma fields_code_ok_spec chk fs ss : simplify_fields chk fs = Some ss ->
  (fields_code_ok ss = true <-> forall t, In t (field_types fs) -> non_zero_ok t /\ tuples_ok outside_arguments t).
Proof.
  intros H. apply simplify_fields_types in H. unfold fields_code_ok.
  replace (forallb (fun f => def_type_ok (sf_ty f) && code_type_ok (sf_ty f)) (ss_fields ss))
    with (forallb (fun t => def_type_ok t && code_type_ok t) (map sf_ty (ss_fields ss)))
    by (clear H; induction (ss_fields ss) as [|f l IH]; [reflexivity|cbn; rewrite <- IH; reflexivity]).
  rewrite H. apply forallb_map_in. intros t _. rewrite andb_true_iff, def_type_ok_spec, code_type_ok_spec. tauto.
Qed.

Lemma generates_spec chk d : forall o, simplify_definition chk d = Some o ->
  (generates o = true <-> forall x, below x d -> generator_ok x).
Proof.
  assert (Hown : forall x : pdef F, (forall c n sub, x <> PModule c n sub) -> (generator_ok x <-> forall y, below y x -> generator_ok y)).
  { intros x Hne. split; [|intros H; apply H; left; reflexivity].
    intros H y [->|(c & n & sub & -> & _)]; [exact H|]. destruct (Hne c n sub eq_refl). }
  induction d as [c n ds IH|c a n g fs|c a n g vs|c n g t|c n t v|sg el] using pdef_ind2; intros o H; cbn [simplify_definition] in H.
  - destruct (all_opt _ ds) as [os|] eqn:E; [|discriminate]. cbn [option_map] in H. injection H as <-.
    apply all_opt_some in E. cbn [generates].
    assert (Hall : forallb generates os = true <-> forall d, In d ds -> forall x, below x d -> generator_ok x).
    { clear -E IH. induction E as [|d o ds os Hd E IHE]; [split; [intros _ d []|reflexivity]|].
      cbn [forallb]. rewrite andb_true_iff, (IH d (or_introl eq_refl) o Hd), IHE.
      - split; [intros [H1 H2] x [<-|Hx]; [exact H1|apply H2; exact Hx]|].
        intros H. split; [apply H; left; reflexivity|intros x Hx; apply H; right; exact Hx].
      - intros x Hx. apply IH. right. exact Hx. }
    rewrite Hall. split.
    + intros H x [->|(c' & n' & sub & Heq & Hw)]; [exact I|]. injection Heq as <- <- <-.
      inversion Hw as [? Hin|c2 n2 sub2 ? Hm Hw2]; subst.
      * apply (H x Hin). left. reflexivity.
      * apply (H _ Hm). right. exists c2, n2, sub2. auto.
    + intros H d Hd x Hx. apply H. right. exists c, n, ds. split; [reflexivity|]. eapply below_within; eassumption.
  - destruct (simplify_fields chk fs) as [ss|] eqn:E; [|discriminate]. cbn [option_map] in H. injection H as <-.
    rewrite <- (Hown (PStruct c a n g fs)) by discriminate. cbn [generates generator_ok mentioned field_lists flat_map]. rewrite app_nil_r.
    apply (fields_code_ok_spec chk). exact E.
  - destruct (simplify_variants chk 1 (p_values vs)) as [ws|] eqn:E; [|discriminate]. cbn [option_map] in H. injection H as <-.
    rewrite <- (Hown (PEnum c a n g vs)) by discriminate. cbn [generates generator_ok mentioned field_lists].
    apply simplify_variants_comment in E.
    induction E as [|v w l ws (_ & _ & Hv) E IHE]; cbn [forallb map flat_map]; [split; [intros _ t []|reflexivity]|].
    rewrite andb_true_iff, IHE, (fields_code_ok_spec chk _ _ Hv). split.
    + intros [H1 H2] t Ht. apply in_app_or in Ht as [Ht|Ht]; [apply H1; exact Ht|apply H2; exact Ht].
    + intros H. split; intros t Ht; apply H, in_or_app; [left|right]; exact Ht.
  - injection H as <-. rewrite <- (Hown (PAlias c n g t)) by discriminate. cbn [generates generator_ok]. apply def_type_ok_spec.
  - injection H as <-. rewrite <- (Hown (PConst c n t v)) by discriminate. cbn [generates generator_ok]. apply const_type_ok_spec.
  - injection H as <-. rewrite <- (Hown (PImport sg el)) by discriminate. cbn. tauto.
Qed.

Theorem generates_schema chk (s : pschema F) c out : simplify_schema chk s = Some (c, out) ->
  (forallb generates out = true <-> forall d, within d (ps_defs s) -> generator_ok d).
Proof.
  intros H. unfold simplify_schema in H. destruct (all_opt _ _) as [os|] eqn:E; [|discriminate].
  cbn [option_map] in H. injection H as <- <-.
  assert (Hm : simplify_definition chk (PModule [] [] (ps_defs s)) = Some (SModule [] [] os)).
  { cbn [simplify_definition]. rewrite E. reflexivity. }
  pose proof (generates_spec chk _ _ Hm) as G. cbn [generates] in G. rewrite G. split.
  - intros HH d Hd. apply HH. right. exists [], [], (ps_defs s). auto.
  - intros HH x [->|(c' & n' & sub & Heq & Hw)]; [exact I|]. injection Heq as <- <- <-. apply HH. exact Hw.
Qed.
End Defs.
