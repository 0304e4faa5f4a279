(** Continuation of ErrViableLit.v: definitions, modules and schemas. *)
From Verif Require Import Base Syntax Parser ParserSpec ParserTotal ParserRound Grammar GrammarSound GrammarComplete Lsp SpanParser SpanProofs ErrParser ErrProofs ErrViable ErrViableLit.
Require Import ZifyN ZifyBool.
Require Coq.Strings.String.
Import Coq.Strings.String.StringSyntax.
Local Open Scope N_scope.

(** * What follows a list of definitions may be replaced *)
Lemma unit_ends_stop g v j x z : unit_ends g (v ++ j) -> x = 10 \/ x = 125 -> unit_ends g (v ++ x :: z).
Proof.
  intros H Hx. destruct (forallb is_space v) eqn:Ev.
  - exists v, x, z. split; [reflexivity|]. split; [apply blank_b, Ev|]. split; [intros Hb; inversion Hb; subst; lia|]. intros _ _. unfold lower, upper, digit. lia.
  - apply unit_ends_extend. eapply unit_ends_cut; [exact H|]. intros Hb. apply blank_space in Hb. congruence.
Qed.
Section Lit.
Context {F : Type} (parse_f64 : str -> option F).
Notation whead := (whead parse_f64).
Notation wdef := (wdef parse_f64).
Notation wdefs := (wdefs parse_f64).
Lemma wdef_stop s (d : pdef F) v j x z : wdef s d (v ++ j) -> x = 10 \/ x = 125 -> wdef s d (v ++ x :: z).
Proof. intros H Hx. inversion H; subst; econstructor; eauto. eapply unit_ends_stop; eassumption. Qed.
Lemma wdefs_stop s (ds : list (pdef F)) a : wdefs s ds a -> forall v j x z, a = v ++ j -> x = 10 \/ x = 125 -> wdefs s ds (v ++ x :: z).
Proof.
  revert s ds a. fix IH 4. intros s ds a H. destruct H as [after|s d rest ds after Hd Hs]; intros v j x z E Hx; subst; constructor.
  - rewrite app_assoc in *. eapply wdef_stop; eassumption.
  - eapply IH; [exact Hs|reflexivity|exact Hx].
Qed.
Lemma wdefs_snoc s (ds : list (pdef F)) a : wdefs s ds a -> forall x d after, a = x ++ after -> wdef x d after -> wdefs (s ++ x) (ds ++ [d]) after.
Proof.
  revert s ds a. fix IH 4. intros s ds a H. destruct H as [after0|s d0 rest ds after0 Hd Hs]; intros x d after E Hx; subst.
  - cbn [app]. eapply retext with (E := fun s l => wdefs s l after); [exact (wds_cons parse_f64 x d [] [] after Hx (wds_nil _ _))|apply app_nil_r].
  - rewrite <- app_assoc. cbn [app]. constructor; [rewrite <- app_assoc; exact Hd|]. eapply IH; [exact Hs|reflexivity|exact Hx].
Qed.

(** * The beginning of a definition *)
(** A comment, and something that is neither white nor a slash. *)
Definition started (pre : str) : Prop := exists b1 sc c b2 y z, pre = b1 ++ sc ++ b2 ++ y :: z /\ White b1 /\ wcomment sc c /\ White b2 /\ is_mspace y = false /\ y <> 47.
Lemma started_app p q : started p -> started (p ++ q).
Proof. intros (b1 & sc & c & b2 & y & z & -> & H). exists b1, sc, c, b2, y, (z ++ q). rewrite <- !app_assoc. auto. Qed.
Lemma started_pre b p : White b -> started p -> started (b ++ p).
Proof. intros Hb (b1 & sc & c & b2 & y & z & -> & H1 & H2). exists (b ++ b1), sc, c, b2, y, z. rewrite <- !app_assoc. split; [reflexivity|]. split; [apply white_app; assumption|exact H2]. Qed.
Lemma started_nonblank p : started p -> ~ Blank p.
Proof.
  intros (b1 & sc & c & b2 & y & z & -> & _ & _ & _ & Hy & _) Hb. repeat (apply Forall_app in Hb as [_ Hb]). inversion Hb; subst. unfold is_mspace in Hy. lia.
Qed.
Lemma wattrs_head s (a : list (attr F)) : wattrs parse_f64 s a -> s = [] \/ exists z, s = 35 :: z.
Proof. intros [s' l H]. destruct H as [|s1 a1 rest l1 H1 _]; [left; reflexivity|right]. destruct H1. eexists. reflexivity. Qed.
Lemma whead_started sh c (a : list (attr F)) k s : whead sh c a -> lower k -> started (sh ++ k :: s).
Proof.
  intros [b1 sc c' b2 sa a' b3 H1 H2 H3 H4 H5] Hk. unfold lower in Hk. rewrite <- !app_assoc. destruct (wattrs_head _ _ H4) as [->|[z ->]].
  - exists b1, sc, c', (b2 ++ b3), k, s. split; [cbn [app]; rewrite <- !app_assoc; reflexivity|]. split; [exact H1|]. split; [exact H2|]. split; [apply white_app; [exact H3|apply blank_white, H5]|]. unfold is_mspace. split; lia.
  - exists b1, sc, c', b2, 35, (z ++ b3 ++ k :: s). split; [cbn [app]; reflexivity|]. split; [exact H1|]. split; [exact H2|]. split; [exact H3|]. split; [reflexivity|discriminate].
Qed.
Lemma wdef_started s (d : pdef F) after : wdef s d after -> started s.
Proof.
  intros H. destruct H as [sh c a k nm sg g b sf fs after Hh Hk Hn Hg Hb Hf Hfs|sh c a k nm sg g after Hh Hk Hn Hg Hu|sh c a k nm sg g b sv vs after Hh Hk Hn Hg Hb Hv|sh c a k nm sg g b1 b2 st t b3 after Hh Hk Hn Hg Hb1 Hb2 Ht Hb3|sh c a k nm b1 st t b2 b3 sv v after Hh Hk Hn Hb1 Ht Hb2 Hb3 Hv|sh c a k segs el se after Hh Hk Hne Hsg Hel|sh c a k nm b1 sd ds b2 after Hh Hk Hn Hb1 Hds Hb2];
    destruct Hk as [kb Hkb Hkb']; (eapply retext with (a := tt) (E := fun s _ => started s); [eapply (whead_started _ _ _ _ _ Hh); shelve|reflexivity]).
  Unshelve. all: unfold lower; cbn; lia.
Qed.

(** The failing run on [i] leaves [r] at a place up to which the text is the beginning of a definition. *)
Definition dviable (i r : str) : Prop := exists pre, i = pre ++ r /\ started pre /\ (dead pre \/ exists t d, text t /\ forall after, wdef (pre ++ t) d after).
Lemma dviable_pre b i r : White b -> dviable i r -> dviable (b ++ i) r.
Proof.
  intros Hb (pre & -> & Hs & H). exists (b ++ pre). split; [apply app_assoc|]. split; [apply started_pre; assumption|]. destruct H as [H|(t & d & Ht & H)]; [left; apply dead_app, H|right].
  exists t, d. split; [exact Ht|]. intros after. rewrite <- app_assoc. apply wdef_prefix; [exact Hb|apply H].
Qed.
(** The text behind a head: whatever the head, it completes a definition. *)
Definition wbody (s : str) : Prop := forall sh c a, whead sh c a -> exists d, forall after, wdef (sh ++ s) d after.
(** The text behind a keyword and its blanks. *)
Definition wtail (kw : str) (s : str) (_ : unit) : Prop := forall k, wkeyword kw k -> wbody (k ++ s).
Variable total : N.
Lemma c_keyword {B} ly kw at_ (ep : eparser B) i e r : within ly at_ (ebind (ekeyword total ly kw) (fun _ => ecut ep)) i = EErr true e r ->
  exists k j c e', i = k ++ j /\ wkeyword kw k /\ ep j = EErr c e' r.
Proof.
  intros H. apply within_err in H as [e' H]. apply ebind_err in H as [H|(u & j & Hu & H)].
  - apply ebind_err in H as [H|(u & j & _ & H)]; [destruct (prim_nocut _ _ _ _ _ _ (nc_tag _) H)|]. exfalso. revert H. apply prim_nocut. apply nc_bind; [apply nc_take|intros a; apply nc_ret].
  - apply ebind_ok in Hu as (u1 & j1 & Ht & Hs). apply prim_ok, tag_inv' in Ht as ->. apply prim_ok, space1_inv in Hs as (b & -> & Hb & Hb'). apply ecut_err in H as [c H].
    exists (kw ++ b), j, c, e'. split; [rewrite <- app_assoc; reflexivity|]. split; [constructor; assumption|exact H].
Qed.
(** A definition that fails behind its keyword. *)
Lemma tail_dviable sh c a kw k x kw' j r : whead sh c a -> wkeyword kw k -> kw = x :: kw' -> lower x -> viable (wtail kw) j r -> dviable (sh ++ k ++ j) r.
Proof.
  intros Hh Hk -> Hx (pre & -> & H). exists (sh ++ k ++ pre). split; [rewrite <- !app_assoc; reflexivity|]. split.
  - destruct Hk as [b Hb Hb']. cbn [app]. eapply whead_started; eassumption.
  - destruct H as [H|(t & u & Ht & H)]; [left; apply dead_app, dead_app, H|right]. destruct (H k Hk sh c a Hh) as [d Hd]. exists t, d. split; [exact Ht|]. intros after. rewrite <- !app_assoc. apply Hd.
Qed.
Ltac here := repeat apply viable_pre; apply viable_here.
Lemma generics_ok i g r : eopt (eparse_generics total) i = EOk g r -> exists s, i = s ++ r /\ wgenerics s g.
Proof. intros H. apply generics_sound. eapply okp; [|exact H]. apply f_opt, (f_generics total). Qed.
Lemma generics_err {B} (E : str -> B -> Prop) i c e r : eopt (eparse_generics total) i = EErr c e r -> (forall sg g, wgenerics sg g -> exists t b, text t /\ E (sg ++ t) b) -> viable E i r.
Proof.
  intros H K. apply eopt_err in H as [-> H]. apply (viable_sub _ _ _ _ (r_generics _ _ _ _ _ H)). intros s a Hs. apply (K s (Some a)). constructor. exact Hs.
Qed.
Ltac body := intros k Hk sh cm at1 Hh; eexists; intros after; eapply retext with (E := fun s d => wdef s d after).
Lemma r_struct i e r : eparse_struct (F := F) total i = EErr true e r -> exists k j, i = k ++ j /\ wkeyword (w "struct") k /\ viable (wtail (w "struct")) j r.
Proof.
  intros H. apply c_keyword in H as (k & j & c & e' & -> & Hk & H). exists k, j. split; [reflexivity|]. split; [exact Hk|]. clear k Hk.
  assert (H0 : forall n, TypeName n -> forall sg g, wgenerics sg g -> forall b, Blank b -> forall sf fs, wshown_fields sf fs -> wtail (w "struct") (n ++ sg ++ b ++ sf) tt).
  { intros n Hn sg g Hg b Hb sf fs [Hf Hfs]. body; [exact (wd_struct parse_f64 sh cm at1 k n sg g b sf fs after Hh Hk Hn Hg Hb Hf Hfs)|reflexivity]. }
  apply ebind_err in H as [H|(n & j1 & Hn & H)].
  { apply name_err in H as ->. here. exists (w "A" ++ [] ++ [] ++ w "(u8)"), tt. split; [texts|]. eapply H0; [exact typeA|constructor|constructor|exact fields_u8]. }
  apply name_ok, type_name_inv in Hn as [-> Hn]; [|split; discriminate|apply m_ident]. apply ebind_err in H as [H|(g & j2 & Hg & H)].
  { apply viable_pre. apply (generics_err _ _ _ _ _ H). intros sg g Hg. exists ([] ++ w "(u8)"), tt. split; [texts|]. eapply H0; [exact Hn|exact Hg|constructor|exact fields_u8]. }
  apply generics_ok in Hg as (sg & -> & Hg). apply ebind_err in H as [H|(u & j3 & Hb & H)].
  { apply prim_err in H as [-> _]. here. exists ([] ++ w "(u8)"), tt. split; [texts|]. eapply H0; [exact Hn|exact Hg|constructor|exact fields_u8]. }
  apply prim_ok, space0_inv in Hb as (b & -> & Hb). apply ebind_err in H as [H|(fs & j4 & _ & H)]; [|discriminate]. do 3 apply viable_pre.
  apply (viable_mono _ _ _ _ (r_fields _ _ _ _ _ H)). intros s fs Hs. exists tt. eapply H0; eassumption.
Qed.
Lemma variants_A : wenclosed wvariant (w "{") (w "}") (w "{A}") (Punct [] (PVariant [] (w "A") FUnit None) false).
Proof.
  apply (retext _ (w "{" ++ w "A" ++ [] ++ w "}")); [|reflexivity]. constructor; [|constructor]. constructor. apply (retext _ ([] ++ [] ++ [] ++ w "A" ++ [] ++ [] ++ [])); [|reflexivity]. constructor; try (constructor; fail). apply typeA.
Qed.
Lemma r_enum i e r : eparse_enum (F := F) total i = EErr true e r -> exists k j, i = k ++ j /\ wkeyword (w "enum") k /\ viable (wtail (w "enum")) j r.
Proof.
  intros H. apply c_keyword in H as (k & j & c & e' & -> & Hk & H). exists k, j. split; [reflexivity|]. split; [exact Hk|]. clear k Hk.
  assert (H0 : forall n, TypeName n -> forall sg g, wgenerics sg g -> forall b, Blank b -> forall sv vs, wenclosed wvariant (w "{") (w "}") sv vs -> wtail (w "enum") (n ++ sg ++ b ++ sv) tt).
  { intros n Hn sg g Hg b Hb sv vs Hv. body; [exact (wd_enum parse_f64 sh cm at1 k n sg g b sv vs after Hh Hk Hn Hg Hb Hv)|reflexivity]. }
  apply ebind_err in H as [H|(n & j1 & Hn & H)].
  { apply name_err in H as ->. here. exists (w "A" ++ [] ++ [] ++ w "{A}"), tt. split; [texts|]. eapply H0; [exact typeA|constructor|constructor|exact variants_A]. }
  apply name_ok, type_name_inv in Hn as [-> Hn]; [|split; discriminate|apply m_ident]. apply ebind_err in H as [H|(g & j2 & Hg & H)].
  { apply viable_pre. apply (generics_err _ _ _ _ _ H). intros sg g Hg. exists ([] ++ w "{A}"), tt. split; [texts|]. eapply H0; [exact Hn|exact Hg|constructor|exact variants_A]. }
  apply generics_ok in Hg as (sg & -> & Hg). apply ebind_err in H as [H|(u & j3 & Hb & H)].
  { apply prim_err in H as [-> _]. here. exists ([] ++ w "{A}"), tt. split; [texts|]. eapply H0; [exact Hn|exact Hg|constructor|exact variants_A]. }
  apply prim_ok, space0_inv in Hb as (b & -> & Hb). apply ebind_err in H as [H|(fs & j4 & _ & H)]; [|discriminate]. do 3 apply viable_pre.
  refine (viable_mono _ _ _ _ (r_enclosed _ _ _ wvariant shown LyEnum (f_variant total) variant_sound (r_variant total) 123 125 variant_A _ _ _ _ _ _ H) _); [texts|texts|]. intros s vs Hs. exists tt. eapply H0; eassumption.
Qed.
Lemma r_alias i e r : eparse_alias (F := F) total i = EErr true e r -> exists k j, i = k ++ j /\ wkeyword (w "type") k /\ viable (wtail (w "type")) j r.
Proof.
  intros H. apply c_keyword in H as (k & j & c & e' & -> & Hk & H). exists k, j. split; [reflexivity|]. split; [exact Hk|]. clear k Hk. pose proof (wt_prim PrU8 : wtype (w "u8") _) as Hu8.
  assert (H0 : forall n, TypeName n -> forall sg g, wgenerics sg g -> forall b1, Blank b1 -> forall b2, Blank b2 -> forall st t, wtype st t -> forall b3, Blank b3 -> wtail (w "type") (n ++ sg ++ b1 ++ w "=" ++ b2 ++ st ++ b3 ++ w ";") tt).
  { intros n Hn sg g Hg b1 Hb1 b2 Hb2 st t Ht b3 Hb3. body; [exact (wd_alias parse_f64 sh cm at1 k n sg g b1 b2 st t b3 after Hh Hk Hn Hg Hb1 Hb2 Ht Hb3)|reflexivity]. }
  assert (H1 : forall n, TypeName n -> forall sg g, wgenerics sg g -> forall b1, Blank b1 -> exists t u, text t /\ wtail (w "type") (n ++ sg ++ b1 ++ t) u).
  { intros n Hn sg g Hg b1 Hb1. exists (w "=" ++ [] ++ w "u8" ++ [] ++ w ";"), tt. split; [texts|]. eapply H0; try eassumption; constructor. }
  apply ebind_err in H as [H|(n & j1 & Hn & H)].
  { apply name_err in H as ->. here. exists (w "A" ++ [] ++ [] ++ w "=" ++ [] ++ w "u8" ++ [] ++ w ";"), tt. split; [texts|]. eapply H0; [exact typeA|constructor|constructor|constructor|exact Hu8|constructor]. }
  apply name_ok, type_name_inv in Hn as [-> Hn]; [|split; discriminate|apply m_ident]. apply ebind_err in H as [H|(g & j2 & Hg & H)].
  { apply viable_pre. apply (generics_err _ _ _ _ _ H). intros sg g Hg. exact (H1 n Hn sg g Hg [] ltac:(constructor)). }
  apply generics_ok in Hg as (sg & -> & Hg). apply ebind_err in H as [H|(u & j3 & Hb & H)]; [apply prim_err in H as [-> _]; here; exact (H1 n Hn sg g Hg [] ltac:(constructor))|].
  apply prim_ok, space0_inv in Hb as (b1 & -> & Hb1). apply ebind_err in H as [H|(u1 & j4 & Hu & H)]; [apply prim_err in H as [-> _]; here; exact (H1 n Hn sg g Hg b1 Hb1)|]. apply prim_ok, char_inv in Hu as ->.
  assert (H2 : forall b2, Blank b2 -> exists t u, text t /\ wtail (w "type") (n ++ sg ++ b1 ++ w "=" ++ b2 ++ t) u).
  { intros b2 Hb2. exists (w "u8" ++ [] ++ w ";"), tt. split; [texts|]. eapply H0; try eassumption; constructor. }
  apply ebind_err in H as [H|(u2 & j5 & Hu & H)]; [apply prim_err in H as [-> _]; here; exact (H2 [] ltac:(constructor))|]. apply prim_ok, space0_inv in Hu as (b2 & -> & Hb2).
  apply ebind_err in H as [H|(t & j6 & Ht & H)].
  { do 5 apply viable_pre. apply (viable_sub _ _ _ _ (r_ptype _ _ _ _ _ H)). intros st t Ht. exists ([] ++ w ";"), tt. split; [texts|]. eapply H0; try eassumption. constructor. }
  apply eptype_ok in Ht as (st & -> & Ht). assert (H3 : forall b3, Blank b3 -> exists q u, text q /\ wtail (w "type") (n ++ sg ++ b1 ++ w "=" ++ b2 ++ st ++ b3 ++ q) u).
  { intros b3 Hb3. exists (w ";"), tt. split; [texts|]. eapply H0; eassumption. }
  apply ebind_err in H as [H|(u3 & j7 & Hu & H)]; [apply prim_err in H as [-> _]; here; exact (H3 [] ltac:(constructor))|]. apply prim_ok, space0_inv in Hu as (b3 & -> & Hb3).
  apply ebind_err in H as [H|(u4 & j8 & _ & H)]; [|discriminate]. apply prim_err in H as [-> _]. here. exact (H3 b3 Hb3).
Qed.
Hypothesis Hf64 : forall s neg a b e, wsign s neg -> Forall digit a -> a <> [] -> Forall digit b -> b <> [] -> wexponent e -> parse_f64 (s ++ a ++ w "." ++ b ++ e) <> None.
Lemma r_const i e r : eparse_const total parse_f64 i = EErr true e r -> exists k j, i = k ++ j /\ wkeyword (w "const") k /\ viable (wtail (w "const")) j r.
Proof.
  intros H. apply c_keyword in H as (k & j & c & e' & -> & Hk & H). exists k, j. split; [reflexivity|]. split; [exact Hk|]. clear k Hk. pose proof (wt_prim PrU8 : wtype (w "u8") _) as Hu8.
  assert (H0 : forall n, ConstName n -> forall b1, Blank b1 -> forall st t, wtype st t -> forall b2, Blank b2 -> forall b3, Blank b3 -> forall sv v, wlit parse_f64 sv v -> wtail (w "const") (n ++ w ":" ++ b1 ++ st ++ b2 ++ w "=" ++ b3 ++ sv ++ w ";") tt).
  { intros n Hn b1 Hb1 st t Ht b2 Hb2 b3 Hb3 sv v Hv. body; [exact (wd_const parse_f64 sh cm at1 k n b1 st t b2 b3 sv v after Hh Hk Hn Hb1 Ht Hb2 Hb3 Hv)|reflexivity]. }
  assert (Hone : exists v, wlit parse_f64 (w "1") v) by (eexists; apply (wl_int parse_f64 [] false (w "1") 1 1%Z); [constructor|exact (proj1 dec1)|discriminate|reflexivity|split; reflexivity || discriminate]). destruct Hone as [v1 Hv1].
  assert (H4 : forall n, ConstName n -> forall b1, Blank b1 -> exists q u, text q /\ wtail (w "const") (n ++ w ":" ++ b1 ++ q) u).
  { intros n Hn b1 Hb1. exists (w "u8" ++ [] ++ w "=" ++ [] ++ w "1" ++ w ";"), tt. split; [texts|]. eapply H0; try eassumption; constructor. }
  apply ebind_err in H as [H|(n & j1 & Hn & H)].
  { apply name_err in H as ->. here. exists (w "A" ++ w ":" ++ [] ++ w "u8" ++ [] ++ w "=" ++ [] ++ w "1" ++ w ";"), tt. split; [texts|]. eapply H0; [exact constA|constructor|exact Hu8|constructor|constructor|exact Hv1]. }
  apply name_ok, const_name_inv in Hn as [-> Hn]; [|split; discriminate|apply m_ident].
  apply ebind_err in H as [H|(u & j2 & Hu & H)].
  { apply prim_err in H as [-> _]. here. exists (w ":" ++ [] ++ w "u8" ++ [] ++ w "=" ++ [] ++ w "1" ++ w ";"), tt. split; [texts|]. eapply H0; try eassumption; constructor. }
  apply prim_ok, char_inv in Hu as ->. apply ebind_err in H as [H|(u1 & j3 & Hu & H)]; [apply prim_err in H as [-> _]; here; exact (H4 n Hn [] ltac:(constructor))|]. apply prim_ok, space0_inv in Hu as (b1 & -> & Hb1).
  apply ebind_err in H as [H|(t & j4 & Ht & H)].
  { do 3 apply viable_pre. apply (viable_sub _ _ _ _ (r_ptype _ _ _ _ _ H)). intros st t Ht. exists ([] ++ w "=" ++ [] ++ w "1" ++ w ";"), tt. split; [texts|]. eapply H0; try eassumption; constructor. }
  apply eptype_ok in Ht as (st & -> & Ht).
  assert (H5 : forall b2, Blank b2 -> exists q u, text q /\ wtail (w "const") (n ++ w ":" ++ b1 ++ st ++ b2 ++ q) u).
  { intros b2 Hb2. exists (w "=" ++ [] ++ w "1" ++ w ";"), tt. split; [texts|]. eapply H0; try eassumption; constructor. }
  apply ebind_err in H as [H|(u2 & j5 & Hu & H)]; [apply prim_err in H as [-> _]; here; exact (H5 [] ltac:(constructor))|]. apply prim_ok, space0_inv in Hu as (b2 & -> & Hb2).
  apply ebind_err in H as [H|(u3 & j6 & Hu & H)]; [apply prim_err in H as [-> _]; here; exact (H5 b2 Hb2)|]. apply prim_ok, char_inv in Hu as ->.
  assert (H6 : forall b3, Blank b3 -> exists q u, text q /\ wtail (w "const") (n ++ w ":" ++ b1 ++ st ++ b2 ++ w "=" ++ b3 ++ q) u).
  { intros b3 Hb3. exists (w "1" ++ w ";"), tt. split; [texts|]. eapply H0; eassumption. }
  apply ebind_err in H as [H|(u4 & j7 & Hu & H)]; [apply prim_err in H as [-> _]; here; exact (H6 [] ltac:(constructor))|]. apply prim_ok, space0_inv in Hu as (b3 & -> & Hb3).
  apply ebind_err in H as [H|(v & j8 & Hv & H)].
  { do 7 apply viable_pre. apply (viable_sub _ _ _ _ (r_literal _ parse_f64 Hf64 _ _ _ _ H)). intros sv v Hv. exists (w ";"), tt. split; [texts|]. eapply H0; eassumption. }
  apply (okp _ _ _ _ _ _ _ (f_literal total parse_f64)) in Hv. apply literal_sound in Hv as (sv & -> & Hv). apply ebind_err in H as [H|(u5 & j9 & _ & H)]; [|discriminate]. apply name_err in H as ->.
  here. exists (w ";"), tt. split; [texts|]. eapply H0; eassumption.
Qed.
Lemma segment_nocut i e r : eparse_segment total i <> EErr true e r.
Proof.
  intros H. apply ecause_err in H as [e2 H]. apply prim_err in H as [_ [[_ H]|[H _]]]; [discriminate|]. unfold lower_name, Parser.ident, pbind, one_of in H. destruct i as [|x i]; [discriminate|]. destruct (is_lower x); [|discriminate].
  unfold take_while in H. destruct (span _ i) as [y z]. discriminate.
Qed.
Lemma type_nocut {A} ly k (q : parser A) i e r : nocut q -> ecause total ly k (prim total ly q) i <> EErr true e r.
Proof. intros Hq H. apply ecause_err in H as [e2 H]. exact (prim_nocut _ _ _ _ _ _ Hq H). Qed.
Lemma nc_type : nocut type_name.
Proof. intros i. unfold type_name, Parser.ident, pbind, one_of. destruct i as [|x i]; [discriminate|]. destruct (is_upper x); [|discriminate]. unfold take_while. destruct (span _ i) as [y z]. discriminate. Qed.
Lemma segs_never n : forall i c e r, eseparated_loop n (eparse_segment total) (prim total LyImport (tag (tx "::"))) i <> EErr c e r.
Proof.
  induction n as [|n IH]; intros i c e r H; cbn [eseparated_loop] in H; [discriminate|]. destruct (ebind _ _ i) as [a j|[] e' j| |] eqn:Ee; try discriminate.
  - destruct (length j =? length i)%nat; [discriminate|]. destruct (eseparated_loop n _ _ j) as [l' r'|c' e2 r'| |] eqn:El; try discriminate. exact (IH _ _ _ _ El).
  - apply ebind_err in Ee as [Ee|(u & k & _ & Ee)]; [exact (prim_nocut _ _ _ _ _ _ (nc_tag _) Ee)|exact (segment_nocut _ _ _ Ee)].
Qed.
Lemma r_import i e r : eparse_import (F := F) total i = EErr true e r -> exists k j, i = k ++ j /\ wkeyword (w "use") k /\ viable (wtail (w "use")) j r.
Proof.
  intros H. apply c_keyword in H as (k & j & c & e' & -> & Hk & H). exists k, j. split; [reflexivity|]. split; [exact Hk|]. clear k Hk.
  assert (H0 : forall segs, segs <> [] -> Forall LowerName segs -> forall el se, (el = None /\ se = [] \/ exists n, el = Some n /\ TypeName n /\ se = w "::" ++ n) -> wtail (w "use") (segments_text segs ++ se ++ w ";") tt).
  { intros segs H1 H2 el se H3. body; [exact (wd_import parse_f64 sh cm at1 k segs el se after Hh Hk H1 H2 H3)|reflexivity]. }
  apply ebind_err in H as [H|(l & j1 & Hl & H)].
  - apply ebind_err in H as [H|(a & j1 & _ & H)]; [|apply ebind_err in H as [H|(l & j2 & _ & H)]; [destruct (segs_never _ _ _ _ _ H)|discriminate]]. apply name_err in H as ->. here.
    exists (segments_text [w "a"] ++ [] ++ w ";"), tt. split; [texts|]. eapply H0; [discriminate|constructor; [exact lowera|constructor]|left; split; reflexivity].
  - assert (Hl' : separated1 lower_name (tag (tx "::")) j = POk l j1).
    { eapply okp; [|exact Hl]. apply f_separated1; [exact (f_segment total)|]. apply f_prim; [split; discriminate|apply m_tag]. }
    apply import_path in Hl' as (-> & Hl1 & Hl2). clear Hl. apply ebind_err in H as [H|(el & j2 & Hel & H)].
    { exfalso. apply eopt_err in H as [_ H]. apply ebind_err in H as [H|(u & j2 & _ & H)]; [exact (prim_nocut _ _ _ _ _ _ (nc_tag _) H)|]. apply ealt_err in H as [[_ H]|[_ H]]; revert H; apply type_nocut, nc_type. }
    apply ebind_err in H as [H|(u & j3 & _ & H)]; [|discriminate]. apply prim_err in H as [-> _].
    assert (He : exists se, j1 = se ++ j2 /\ (el = None /\ se = [] \/ exists n, el = Some n /\ TypeName n /\ se = w "::" ++ n)).
    { assert (Hel' : opt (tag (tx "::") ;; alt type_name type_name) j1 = POk el j2).
      { eapply okp; [|exact Hel]. apply f_opt. apply f_bind; [apply (f_prim total shown); [split; discriminate|apply m_tag]|]. intros _. apply f_alt; (apply f_cause; [split; discriminate|]; apply f_prim; [split; discriminate|apply m_ident]). }
      apply opt_inv in Hel' as [(n & -> & Hn)|(-> & -> & _)]; [|exists []; split; [reflexivity|left; auto]]. apply bind_inv in Hn as (u1 & k1 & Ht & Hn). apply tag_inv' in Ht as ->.
      exists (w "::" ++ n). apply alt_inv in Hn as [Hn|Hn]; apply type_name_inv in Hn as [-> Hn]; (split; [rewrite <- app_assoc; reflexivity|right; eauto]). }
    destruct He as (se & -> & He). here. exists (w ";"), tt. split; [texts|]. eapply H0; eassumption.
Qed.

(** * Modules and lists of definitions *)
Section Defs.
Variables (ep : eparser (pdef F)) (p : parser (pdef F)).
Hypothesis Hf : follows total shown ep p.
Hypothesis Hp : dsound parse_f64 p.
Hypothesis Hr : forall i e r, ep i = EErr true e r -> dviable i r.
Lemma defs_err n : forall i c e r, erepeat_loop n ep i = EErr c e r -> exists s ds b j, i = s ++ b ++ j /\ Blank b /\ wdefs s ds (b ++ j) /\ ep j = EErr true e r.
Proof.
  induction n as [|n IH]; intros i c e r H; cbn [erepeat_loop] in H; [discriminate|]. destruct (ep i) as [a j|[] e' j| |] eqn:Ee; try discriminate.
  - destruct (length j =? length i)%nat; [discriminate|]. destruct (erepeat_loop n ep j) as [l' j'|c2 e2 j'| |] eqn:El; try discriminate.
    assert (e2 = e /\ j' = r) as [-> ->] by (split; congruence). apply (okp _ _ _ _ _ _ _ Hf) in Ee. destruct (Hp _ _ _ Ee) as (s & b & -> & Hb & Hs).
    destruct (IH _ _ _ _ El) as (s' & ds' & b' & k & -> & Hb' & Hs' & Hk). inversion Hs' as [after|s1 d rest ds after Hd Hrest]; subst.
    + exists s, [a], (b ++ b'), k. split; [rewrite <- !app_assoc; reflexivity|]. split; [apply GrammarSound.blank_app; assumption|]. split; [|exact Hk]. rewrite <- (app_nil_r s). constructor; [|constructor]. rewrite <- app_assoc. exact Hs.
    + exists (s ++ (b ++ s1) ++ rest), (a :: d :: ds), b', k. split; [rewrite <- !app_assoc; reflexivity|]. split; [exact Hb'|]. split; [|exact Hk]. constructor; [rewrite <- !app_assoc in *; exact Hs|]. constructor; [|exact Hrest]. apply wdef_prefix; [apply blank_white, Hb|exact Hd].
  - exists [], [], [], i. split; [reflexivity|]. split; [constructor|]. split; [constructor|congruence].
Qed.
Lemma defs_viable i c e r : erepeat0 ep i = EErr c e r ->
  exists pre, i = pre ++ r /\ started pre /\ (dead pre \/ exists t ds, text t /\ forall after, wdefs (pre ++ t) ds after).
Proof.
  intros H. apply defs_err in H as (s & ds & b & j & -> & Hb & Hds & Hj). apply Hr in Hj as (pre & -> & Hst & Hj).
  exists (s ++ b ++ pre). split; [rewrite <- !app_assoc; reflexivity|]. split.
  - destruct Hds as [after|s1 d rest ds after Hd Hrest]; [exact (started_pre b pre (blank_white _ Hb) Hst)|]. rewrite <- app_assoc. apply started_app. eapply wdef_started, Hd.
  - destruct Hj as [Hj|(t & d & Ht & Hd)]; [left; apply dead_app, dead_app, Hj|right]. exists t, (ds ++ [d]). split; [exact Ht|]. intros after. rewrite <- !app_assoc.
    apply (wdefs_snoc s ds ((b ++ pre) ++ t ++ after)) with (d := d); [|rewrite <- !app_assoc; reflexivity|apply wdef_prefix; [apply blank_white, Hb|apply Hd]].
    apply wdefs_extend. eapply wdefs_after; [exact Hds|rewrite app_assoc; reflexivity|]. intros Hbl. apply Forall_app in Hbl as [_ Hbl]. exact (started_nonblank _ Hst Hbl).
Qed.
End Defs.
Lemma ews_dviable ly (ep : eparser (pdef F)) : (forall i e r, ep i = EErr true e r -> dviable i r) -> forall i e r, ews total ly ep i = EErr true e r -> dviable i r.
Proof. intros Hr i e r H. apply ews_err in H as (b & j & -> & Hb & H). apply dviable_pre; [exact Hb|exact (Hr _ _ _ H)]. Qed.
Lemma r_module (ep : eparser (pdef F)) p i e r : follows total shown ep p -> dsound parse_f64 p -> (forall i e r, ep i = EErr true e r -> dviable i r) ->
  eparse_module total ep i = EErr true e r -> exists k j, i = k ++ j /\ wkeyword (w "mod") k /\ viable (wtail (w "mod")) j r.
Proof.
  intros Hf Hp Hr H. apply c_keyword in H as (k & j & c & e' & -> & Hk & H). exists k, j. split; [reflexivity|]. split; [exact Hk|]. clear k Hk.
  assert (H0 : forall n, LowerName n -> forall b1, Blank b1 -> forall sd ds b2, wdefs sd ds (b2 ++ w "}") -> White b2 -> wtail (w "mod") (n ++ b1 ++ w "{" ++ sd ++ b2 ++ w "}") tt).
  { intros n Hn b1 Hb1 sd ds b2 Hds Hb2. body; [exact (wd_module parse_f64 sh cm at1 k n b1 sd ds b2 after Hh Hk Hn Hb1 Hds Hb2)|reflexivity]. }
  assert (H1 : forall n, LowerName n -> forall b1, Blank b1 -> exists q u, text q /\ wtail (w "mod") (n ++ b1 ++ q) u).
  { intros n Hn b1 Hb1. exists (w "{" ++ [] ++ [] ++ w "}"), tt. split; [texts|]. eapply H0; try assumption; [constructor|apply Forall_nil]. }
  apply ebind_err in H as [H|(n & j1 & Hn & H)].
  { apply name_err in H as ->. here. exists (w "a" ++ [] ++ w "{" ++ [] ++ [] ++ w "}"), tt. split; [texts|]. eapply H0; [exact lowera|apply Forall_nil|constructor|apply Forall_nil]. }
  apply name_ok, lower_name_inv in Hn as [-> Hn]; [|split; discriminate|apply m_ident].
  apply ebind_err in H as [H|(u & j2 & Hu & H)]; [apply prim_err in H as [-> _]; here; exact (H1 n Hn [] ltac:(constructor))|]. apply prim_ok, space0_inv in Hu as (b1 & -> & Hb1).
  apply ebind_err in H as [H|(l & j3 & _ & H)]; [|discriminate]. apply ebind_err in H as [H|(u1 & j3 & Hu & H)]; [apply prim_err in H as [-> _]; here; exact (H1 n Hn b1 Hb1)|]. apply prim_ok, char_inv in Hu as ->.
  do 3 apply viable_pre. apply ecut_err in H as [c' H]. pose proof (f_ws total shown LyModule ep p ltac:(split; discriminate) Hf) as Hfw. apply ebind_err in H as [H|(ds & j4 & Hds & H)].
  - apply (defs_viable _ _ Hfw (ws_dsound _ _ Hp) (ews_dviable _ _ Hr)) in H as (pre & -> & _ & H). exists pre. split; [reflexivity|]. destruct H as [H|(t & ds & Ht & H)]; [left; exact H|right].
    exists (t ++ [] ++ w "}"), tt. split; [apply Forall_app; split; [exact Ht|texts]|]. eapply retext with (a := tt) (E := wtail (w "mod")); [eapply (H0 n Hn b1 Hb1 (pre ++ t) ds []); [apply H|apply Forall_nil]|rewrite <- !app_assoc; reflexivity].
  - assert (Hds' : repeat0 (ws p) j3 = POk ds j4) by (eapply okp; [apply f_repeat0, Hfw|exact Hds]). apply (defs_loop_sound parse_f64 _ _ (ws_dsound _ _ Hp)) in Hds' as (sd & b2 & -> & Hb2 & Hd).
    apply ebind_err in H as [H|(u2 & j5 & _ & H)]; [|discriminate]. apply ews_char_err in H as (b' & -> & Hb'). here. exists (w "}"), tt. split; [texts|].
    eapply retext with (a := tt) (E := wtail (w "mod")); [eapply (H0 n Hn b1 Hb1 sd ds (b2 ++ b'))|rewrite <- !app_assoc; reflexivity]; [|apply white_app; [apply blank_white, Hb2|exact Hb']].
    apply (wdefs_stop _ _ _ Hd (b2 ++ b') r 125 []); [rewrite <- app_assoc; reflexivity|right; reflexivity].
Qed.
Lemma attributes_ok i a r : ews total LyDefinition (eattributes total parse_f64) i = EOk a r -> exists b s, i = b ++ s ++ r /\ White b /\ wattrs parse_f64 s a.
Proof.
  intros H. apply ebind_ok in H as (u & j & Hu & H). apply prim_ok, mspace_inv in Hu as (b & -> & Hb & _). apply (okp _ _ _ _ _ _ _ (f_attributes total parse_f64)) in H. apply attributes_sound in H as (s & -> & Hs). exists b, s. auto.
Qed.
Lemma r_definition n : forall i e r, eparse_definition total parse_f64 n i = EErr true e r -> dviable i r.
Proof.
  induction n as [|n IH]; intros i e r H; cbn [eparse_definition] in H; [discriminate|]. apply ebind_err in H as [H|(c & j & Hc & H)]; [destruct (ws_comments_never _ _ _ _ _ _ H)|]. apply ws_comments_ok in Hc as (b1 & sc & -> & Hb1 & Hc).
  apply ebind_err in H as [H|(a & j1 & Ha & H)].
  - apply ews_err in H as (b2 & j1 & -> & Hb2 & H). apply (r_attributes total parse_f64 Hf64) in H as (j2 & -> & pre & -> & H).
    exists (b1 ++ sc ++ b2 ++ [35] ++ pre). split; [rewrite <- !app_assoc; reflexivity|]. split; [exists b1, sc, c, b2, 35, pre; repeat split; try assumption; discriminate|].
    destruct H as [H|(t & a & Ht & H)]; [left; do 4 apply dead_app; exact H|right]. exists (t ++ [] ++ w "use " ++ w "a;"), (PImport [w "a"] None). split; [apply Forall_app; split; [exact Ht|texts]|].
    intros after. eapply retext with (E := fun s d => wdef s d after); [apply (wd_import parse_f64 (b1 ++ sc ++ b2 ++ ([35] ++ pre ++ t) ++ []) c a (w "use" ++ w " ") [w "a"] None []); [constructor; try assumption; constructor|constructor; [repeat constructor|discriminate]|discriminate|constructor; [exact lowera|constructor]|left; split; reflexivity]|].
    rewrite <- !app_assoc. reflexivity.
  - apply attributes_ok in Ha as (b2 & sa & -> & Hb2 & Ha). apply ebind_err in H as [H|(u & j2 & Hu & H)]; [destruct (prim_nocut _ _ _ _ _ _ nc_space0 H)|]. apply prim_ok, space0_inv in Hu as (b3 & -> & Hb3).
    assert (Hh : whead (b1 ++ sc ++ b2 ++ sa ++ b3) c a) by (constructor; assumption).
    apply ebind_err in H as [H|(d & j3 & _ & H)]; [|discriminate]. apply ebind_err in H as [H|(k & j3 & Hk & H)]; [apply prim_err in H as [_ [[_ H]|[H _]]]; [discriminate|]; destruct j2; discriminate|]. apply prim_ok, peek_inv in Hk as (-> & _).
    assert (Hgo : forall kw x kw', kw = x :: kw' -> lower x -> (exists k0 j0, j2 = k0 ++ j0 /\ wkeyword kw k0 /\ viable (wtail kw) j0 r) -> dviable (b1 ++ sc ++ b2 ++ sa ++ b3 ++ j2) r).
    { intros kw x kw' Ekw Hx (k0 & j0 & -> & Hk0 & Hv). pose proof (tail_dviable _ _ _ kw k0 x kw' j0 r Hh Hk0 Ekw Hx Hv) as G. rewrite <- !app_assoc in G. exact G. }
    repeat match type of H with (if ?b then _ else _) _ = _ => destruct b end; [..|discriminate].
    + apply (Hgo (w "mod") 109 (w "od") eq_refl ltac:(unfold lower; lia)). eapply r_module; [exact (f_definition total parse_f64 n)|apply definition_sound|exact IH|exact H].
    + apply (Hgo (w "struct") 115 (w "truct") eq_refl ltac:(unfold lower; lia)). exact (r_struct _ _ _ H).
    + apply (Hgo (w "enum") 101 (w "num") eq_refl ltac:(unfold lower; lia)). exact (r_enum _ _ _ H).
    + apply (Hgo (w "const") 99 (w "onst") eq_refl ltac:(unfold lower; lia)). exact (r_const _ _ _ H).
    + apply (Hgo (w "type") 116 (w "ype") eq_refl ltac:(unfold lower; lia)). exact (r_alias _ _ _ H).
    + apply (Hgo (w "use") 117 (w "se") eq_refl ltac:(unfold lower; lia)). exact (r_import _ _ _ H).
Qed.
End Lit.

(** * Schemas *)
Lemma comments_at b1 sc c b2 x r : White b1 -> wcomment sc c -> White b2 -> is_mspace x = false -> x <> 47 ->
  ws comments (b1 ++ sc ++ b2 ++ x :: r) = POk c ((match c with [] => [] | _ => b2 end) ++ x :: r).
Proof.
  intros Hb1 Hc Hb2 Hx Hx'. destruct Hc as [|s a t l Hs Ht].
  - cbn [app]. rewrite app_assoc, ws_ok; [|apply white_sp, white_app; assumption|exact Hx]. apply repeat_chain. constructor. apply (line_back []); [constructor|exact Hx|exact Hx'].
  - destruct Hs as [c1 c2 l' Hc1 Hc2 Hl]. rewrite <- !app_assoc, (app_assoc b1), ws_ok; [|apply white_sp, white_app; [assumption|apply blank_white, Hc1]|reflexivity].
    apply repeat_chain. pose proof (lines_chain ((w "///" ++ c2 ++ l' ++ [10]) ++ t) (l' :: l) (b2 ++ x :: r)) as H. rewrite <- !app_assoc in H. apply H; [|apply line_back; assumption].
    replace (w "///" ++ c2 ++ l' ++ [10] ++ t) with (([] ++ w "///" ++ c2 ++ l' ++ [10]) ++ t) by (cbn [app]; rewrite <- !app_assoc; reflexivity).
    constructor; [|exact Ht]. constructor; [constructor|assumption|assumption].
Qed.
Notation opening := (pdo c <- ws comments; char 10 ;; pret c).
Lemma opening_started pre q q' : started pre -> opening (pre ++ q) = PBack -> opening (pre ++ q') = PBack.
Proof.
  intros (b1 & sc & c & b2 & y & z & -> & H1 & H2 & H3 & H4 & H5). rewrite <- !app_assoc. cbn [app]. unfold pbind at 1 3. rewrite !(comments_at b1 sc c b2 y) by assumption.
  unfold pbind. destruct c as [|l c]; [|destruct b2 as [|x b2]]; cbn [app char].
  - destruct (y =? 10); [discriminate|reflexivity].
  - destruct (y =? 10); [discriminate|reflexivity].
  - destruct (x =? 10); [discriminate|reflexivity].
Qed.
Lemma wopening_white b so c rest : White b -> wopening so c -> b <> so ++ rest.
Proof.
  intros Hb [b0 s c' Hb0 Hc Hne] ->. destruct Hc as [|s1 l1 s2 l2 [b1 b2 l Hb1 Hb2 Hl] _]; [contradiction|]. rewrite <- !app_assoc in Hb. do 2 (apply Forall_app in Hb as [_ Hb]). inversion Hb as [|x y Hx Hy]; subst.
  change (w "///") with [47; 47; 47] in *. inversion Hb; subst. lia.
Qed.
Section Schema.
Context {F : Type} (parse_f64 : str -> option F).
Variable total : N.
Hypothesis Hf64 : forall s neg a b e, wsign s neg -> Forall digit a -> a <> [] -> Forall digit b -> b <> [] -> wexponent e -> parse_f64 (s ++ a ++ w "." ++ b ++ e) <> None.
Notation wschema := (wschema parse_f64).
Definition sviable (i r : str) : Prop := exists pre, i = pre ++ r /\ (dead pre \/ exists t s, text t /\ wschema (pre ++ t) s).
Lemma opening_ok i o r : eopt (ebind (ews total LySchema (ecomments total)) (fun c => ebind (prim total LySchema (char 10)) (fun _ => eret c))) i = EOk o r ->
  (exists c so, o = Some c /\ i = so ++ r /\ wopening so c) \/ (o = None /\ i = r /\ opening i = PBack).
Proof.
  intros H. assert (H' : opt opening i = POk o r).
  { eapply okp; [|exact H]. apply (f_opt total shown). apply f_bind; [apply f_ws; [split; discriminate|exact (f_comments total)]|]. intros c. apply f_bind; [apply f_prim; [split; discriminate|apply m_char]|]. intros _. apply f_ret. }
  apply opt_inv in H' as [(c & -> & Hc)|(-> & -> & Hb)]; [left|right; auto]. apply opening_sound in Hc as (so & -> & Hso). exists c, so. auto.
Qed.
(** The definitions [sd] behind the comment of the schema, if there is one. *)
Lemma schema_completed pre0 i o c : eopt (ebind (ews total LySchema (ecomments total)) (fun c => ebind (prim total LySchema (char 10)) (fun _ => eret c))) pre0 = EOk o i ->
  c = match o with Some c => c | None => [] end ->
  forall pre r, i = pre ++ r -> (started pre \/ White pre) ->
  exists so, pre0 = so ++ i /\ forall t x b ds, pre ++ t = x ++ b -> wdefs parse_f64 x ds b -> White b -> (White pre -> White (pre ++ t)) -> wschema ((so ++ pre) ++ t) (PSchema c ds).
Proof.
  intros H -> pre r Hi Hst. apply opening_ok in H as [(c & so & -> & -> & Hso)|(-> & -> & Hb)].
  - exists so. split; [reflexivity|]. intros t x b ds E Hds Hbw _. rewrite <- app_assoc, E. constructor; assumption.
  - exists []. split; [reflexivity|]. intros t x b ds E Hds Hbw Hw. cbn [app]. rewrite E. apply ws_plain; [exact Hds|exact Hbw|]. rewrite <- E. intros so c rest Hso E'. destruct Hst as [Hst|Hst].
    + rewrite Hi in Hb. apply (opening_started _ _ t Hst) in Hb. rewrite E', (opening_complete so c rest Hso) in Hb. discriminate.
    + exact (wopening_white _ _ _ _ (Hw Hst) Hso E').
Qed.
Lemma schema_err i c e r : eparse_schema total parse_f64 i = EErr c e r -> sviable i r.
Proof.
  intros H. apply ebind_err in H as [H|(o & j & Ho & H)].
  - exfalso. apply eopt_err in H as [_ H]. apply ebind_err in H as [H|(c' & j & _ & H)]; [exact (ws_comments_never _ _ _ _ _ _ H)|]. apply ebind_err in H as [H|(u & k & _ & H)]; [exact (prim_nocut _ _ _ _ _ _ (nc_char _) H)|discriminate].
  - apply ebind_err in H as [H|(ds & k & _ & H)].
    + apply (defs_viable parse_f64 total _ _ (f_pdefinition total parse_f64)) in H as (pre & Ej & Hst & H); [|intros i' d' r' Hd; exact (definition_sound _ _ _ _ _ Hd)|intros i' e' r' Hd; exact (r_definition parse_f64 total Hf64 _ _ _ _ Hd)].
      destruct (schema_completed _ _ _ _ Ho eq_refl pre r Ej (or_introl Hst)) as (so & -> & Hs). rewrite Ej. exists (so ++ pre). split; [apply app_assoc|].
      destruct H as [H|(t & ds & Ht & H)]; [left; apply dead_app, H|right]. eexists t, _. split; [exact Ht|]. apply (Hs t (pre ++ t) [] ds); [rewrite app_nil_r; reflexivity|apply H|apply Forall_nil|].
      intros Hw. exfalso. destruct Hst as (b1 & sc & c' & b2 & y & z & -> & _ & _ & _ & Hy & _). repeat (apply Forall_app in Hw as [_ Hw]). apply white_char in Hw. congruence.
    + exfalso. apply ebind_err in H as [H|(u & k' & _ & H)]; [|discriminate]. apply prim_err in H as [_ [[H _]|[H _]]]; unfold multispace0, pmap, pbind, take_while in H; destruct (span is_mspace k) as [x y]; discriminate.
Qed.
(** What is left of a text behind its schema. *)
Lemma schema_rest i s r : eparse_schema total parse_f64 i = EOk s r -> sviable i r.
Proof.
  intros H. apply ebind_ok in H as (o & j & Ho & H). apply ebind_ok in H as (ds & k & Hds & H). apply ebind_ok in H as (u & k1 & Hm & H). assert (k1 = r) as -> by (unfold eret in H; congruence). clear H.
  apply prim_ok, mspace_inv in Hm as (b' & -> & Hb' & _).
  assert (Hds' : repeat0 (pdefinition parse_f64) j = POk ds (b' ++ r)) by (eapply okp; [apply f_repeat0, f_pdefinition|exact Hds]). apply defs_sound in Hds' as (sd & b & Ej & Hb & Hd).
  assert (Hst : started (sd ++ b ++ b') \/ White (sd ++ b ++ b')).
  { destruct Hd as [after|s1 d rest ds after Hd Hrest]; [right; exact (white_app b b' (blank_white _ Hb) Hb')|left]. rewrite <- app_assoc. apply started_app. eapply wdef_started, Hd. }
  destruct (schema_completed _ _ _ _ Ho eq_refl (sd ++ b ++ b') r ltac:(rewrite Ej, <- !app_assoc; reflexivity) Hst) as (so & -> & Hs). exists (so ++ sd ++ b ++ b'). split; [rewrite Ej, <- !app_assoc; reflexivity|]. right.
  eexists [10], _. split; [texts|]. apply (Hs [10] sd ((b ++ b') ++ [10]) ds).
  - rewrite <- !app_assoc. reflexivity.
  - apply (wdefs_stop _ _ _ _ Hd (b ++ b') r 10 []); [rewrite <- app_assoc; reflexivity|left; reflexivity].
  - apply white_app; [apply white_app; [apply blank_white, Hb|exact Hb']|]. constructor; [lia|constructor].
  - intros Hw. apply white_app; [exact Hw|]. constructor; [lia|constructor].
Qed.
End Schema.
