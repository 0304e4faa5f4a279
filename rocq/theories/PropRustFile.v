(** Property theorems C75, continued: the whole generated file, with the [impl] blocks, and every path in it. *)
From Verif Require Import Base Syntax Parser ParserSpec Compiler CompilerSpec CompilerClaims CompilerProofs CompilerMore GenProofs Resolve ResolveSpec ProjectSpec
  Const Tools ToolsSpec ToolsProofs PropParser ResolveClaims PropResolve PropBuild RustTokens RustTokensProofs PropRustNames.
From Verif Require RustFile RustRead RustReadProofs RustFileRead RustFileReadProofs.
Require Coq.Strings.String.
Import Coq.Strings.String.StringSyntax.
Local Open Scope N_scope.
Notation number_text := RustFileReadProofs.number_text.
Notation file_parses := RustFileRead.file_parses.

(** * Specification *)
Section Spec.
Context {F : Type}.
(** A definition that mentions a path with a keyword in it, other than the keywords that paths are made of. *)
Definition path_keyword (d : pdef F) : Prop := exists t path n g s, In t (mentioned d) /\ part anywhere (PExternal path n g) t /\ In s path
  /\ reserved s /\ ~ In s [w "self"; w "super"; w "crate"; w "Self"; w "try"].
(** No name in the schema is in the way. *)
Definition usable (d : pdef F) : Prop := ~ takes_keyword d /\ ~ starts_with_try d /\ ~ path_keyword d.
Definition all_usable (ds : list (pdef F)) : Prop := forall d, within d ds -> usable d.
(** Paths at the beginning of which Rust could read the visibility [pub] are paths into a module of that name. *)
Definition pub_known (ds : list (pdef F)) : Prop := forall c a n g vs v path m gs, within (PEnum c a n g vs) ds -> In v (p_values vs) ->
  In (PExternal (w "pub" :: path) m gs) (field_types (pv_fields v)) -> exists c sub, within (PModule c (w "pub") sub) ds.
End Spec.
(** A number as Rust prints one that is finite: a sign, digits, a point and digits. *)
Definition digits (s : str) : Prop := s <> [] /\ Forall (fun c => 48 <= c <= 57) s.
Definition decimal (s : str) : Prop := exists sign a b, (sign = [] \/ sign = [45]) /\ digits a /\ digits b /\ s = sign ++ a ++ 46 :: b.

(** * Numbers *)
Lemma digit_iff c : RustFile.digit c = true <-> 48 <= c <= 57.
Proof. unfold RustFile.digit. rewrite andb_true_iff, !N.leb_le. tauto. Qed.
Lemma span_digits a r : Forall (fun c => 48 <= c <= 57) a -> (match r with c :: _ => RustFile.digit c = false | [] => True end) -> RustFile.span_of RustFile.digit (a ++ r) = (a, r).
Proof.
  intros Ha Hr. induction Ha as [|c a Hc Ha IH]; cbn [app RustFile.span_of].
  - destruct r as [|c r]; [reflexivity|]. cbn [RustFile.span_of]. rewrite Hr. reflexivity.
  - apply digit_iff in Hc. rewrite Hc, IH. reflexivity.
Qed.
Lemma lex_digit f d r : 48 <= d <= 57 -> RustFile.lex (S f) (d :: r) =
  let (a, b) := RustFile.span_of RustFile.digit (d :: r) in
  match b with
  | 46 :: x :: _ => if RustFile.digit x then let (e, b') := RustFile.span_of RustFile.digit (tl b) in RustFile.Leaf (RustFile.Q (a ++ 46 :: e)) :: RustFile.lex f b' else RustFile.Leaf (RustFile.Q a) :: RustFile.lex f b
  | _ => RustFile.Leaf (RustFile.Q a) :: RustFile.lex f b
  end.
Proof.
  intros H. assert (E : d = 48 \/ d = 49 \/ d = 50 \/ d = 51 \/ d = 52 \/ d = 53 \/ d = 54 \/ d = 55 \/ d = 56 \/ d = 57) by lia.
  destruct E as [->|[->|[->|[->|[->|[->|[->|[->|[->| ->]]]]]]]]]; reflexivity.
Qed.
Lemma lex_minus f d r : 48 <= d <= 57 -> RustFile.lex (S f) (45 :: d :: r) = RustFile.Leaf (RustFile.P [45]) :: RustFile.lex f (d :: r).
Proof.
  intros H. assert (E : d = 48 \/ d = 49 \/ d = 50 \/ d = 51 \/ d = 52 \/ d = 53 \/ d = 54 \/ d = 55 \/ d = 56 \/ d = 57) by lia.
  destruct E as [->|[->|[->|[->|[->|[->|[->|[->|[->| ->]]]]]]]]]; reflexivity.
Qed.
Lemma lex_decimal f a b : digits a -> digits b -> RustFile.lex (S (S f)) (a ++ 46 :: b) = [RustFile.Leaf (RustFile.Q (a ++ 46 :: b))].
Proof.
  intros [Ha1 Ha2] [Hb1 Hb2]. destruct a as [|d a]; [contradiction|]. cbn [app]. rewrite lex_digit by (inversion Ha2; assumption).
  change (d :: a ++ 46 :: b) with ((d :: a) ++ 46 :: b). rewrite span_digits by (try assumption; reflexivity). destruct b as [|x b]; [contradiction|]. cbv beta iota. cbn [tl].
  assert (Hx : RustFile.digit x = true) by (apply digit_iff; inversion Hb2; assumption). rewrite Hx. pose proof (span_digits (x :: b) [] Hb2 I) as E. rewrite app_nil_r in E. rewrite E. reflexivity.
Qed.
Lemma decimal_number s : decimal s -> number_text s.
Proof.
  intros (sign & a & b & Hs & Ha & Hb & ->). unfold number_text, RustFileReadProofs.number_text. exists (a ++ 46 :: b). unfold RustFile.read. destruct Hs as [-> | ->]; cbn [app].
  - left. rewrite app_length. cbn [length]. rewrite Nat.add_succ_r, lex_decimal by assumption. reflexivity.
  - right. cbn [length]. pose proof (lex_decimal (length a + length b) a b Ha Hb) as E. assert (El : length (a ++ 46 :: b) = S (length a + length b)) by (rewrite app_length; cbn [length]; lia). rewrite El.
    destruct Ha as [Ha1 Ha2]. destruct a as [|d a]; [contradiction|]. cbn [app] in *. inversion Ha2 as [|? ? Hd _]; subst. rewrite lex_minus by exact Hd. rewrite E. exact eq_refl.
Qed.

(** * Paths *)
Lemma segment_usable first s : segment_name first s = true -> ~ (reserved s /\ ~ In s [w "self"; w "super"; w "crate"; w "Self"; w "try"]).
Proof.
  unfold segment_name. intros H [Hr Hn]. apply reserved_iff in Hr. rewrite Hr in H. cbn [orb] in H. apply one_of_iff in H. apply Hn. destruct first; cbn [In] in *; tauto.
Qed.
Lemma path_ok_usable path : forall first n a s, path_ok first path n a = true -> In s path -> ~ (reserved s /\ ~ In s [w "self"; w "super"; w "crate"; w "Self"; w "try"]).
Proof.
  induction path as [|x path IH]; intros first n a s H Hs; [destruct Hs|]. cbn [path_ok] in H. apply andb_true_iff in H as [H1 H2]. destruct Hs as [<-|Hs]; [exact (segment_usable _ _ H1)|exact (IH _ _ _ _ H2 Hs)].
Qed.
Lemma ok_ty_usable t path n g s : ok_ty (simplify_type t) = true -> part anywhere (PExternal path n g) t -> In s path -> ~ (reserved s /\ ~ In s [w "self"; w "super"; w "crate"; w "Self"; w "try"]).
Proof.
  intros H Hp Hs. apply (ok_ty_no_try _ _ Hp) in H. destruct (simplify_external_any path n g) as [gs E]. rewrite E in H. cbn [ok_ty] in H. apply andb_true_iff in H as [H _]. exact (path_ok_usable _ _ _ _ _ H Hs).
Qed.
Lemma fields_paths chk fs ss : simplify_fields chk fs = Some ss -> ok_fields true ss = true -> forall t, In t (field_types fs) -> ok_ty (simplify_type t) = true.
Proof.
  intros H Ho t Ht. pose proof (simplify_fields_types _ _ _ H) as E. assert (Hin : In (simplify_type t) (map sf_ty (ss_fields ss))) by (rewrite E; apply in_map; exact Ht).
  apply in_map_iff in Hin as (f & <- & Hf). unfold ok_fields in Ho. assert (Hk : match fs with FUnit => False | _ => True end) by (destruct fs; [exact I..|destruct Ht]).
  destruct fs as [l|l|]; cbn [simplify_fields] in H; [| |destruct Hk]; destruct (draw _ _ _) as [ids|]; try discriminate; cbn [option_map] in H; injection H as <-; cbn [ss_kind ss_fields] in *; rewrite forallb_forall in Ho; specialize (Ho f Hf).
  - apply andb_true_iff in Ho. apply Ho.
  - unfold ok_unnamed in Ho. cbn [negb andb] in Ho. rewrite orb_false_r in Ho. exact Ho.
Qed.
Section Defs.
Context {F : Type}.
Implicit Types (d : pdef F).
Lemma def_paths chk d : forall o, simplify_definition chk d = Some o -> (forall x, below x d -> generator_ok x) -> ok_def_at true o = true -> forall x, below x d -> ~ path_keyword x.
Proof.
  induction d as [c n ds IH|c a n g fs|c a n g vs|c n g t|c n t v|sg el] using pdef_ind2; intros o H Hgen Ho x Hx; cbn [simplify_definition] in H.
  - destruct (all_opt _ ds) as [os|] eqn:E; [|discriminate]. cbn [option_map] in H. injection H as <-. apply all_opt_some in E. cbn [ok_def_at] in Ho. apply andb_true_iff in Ho as [_ Ho].
    assert (Hb : forall y z, In y ds -> below z y -> below z (PModule c n ds)).
    { intros y z Hy Hz. right. exists c, n, ds. split; [reflexivity|]. eapply below_within; eassumption. }
    assert (Hall : forall d, In d ds -> forall x, below x d -> ~ path_keyword x).
    { assert (Hg : forall d, In d ds -> forall x, below x d -> generator_ok x) by (intros y Hy z Hz; apply Hgen; eapply Hb; eassumption). clear x Hx.
      clear -E IH Hg Ho. induction E as [|d o ds os Hd E IHE]; [intros d []|]. cbn [forallb] in Ho. apply andb_true_iff in Ho as [H1 H2].
      intros x [<-|Hx]; [apply (IH d (or_introl eq_refl) o Hd); [apply Hg; left; reflexivity|exact H1]|]. apply IHE; try assumption; [intros y Hy; apply IH; right; exact Hy|intros y Hy; apply Hg; right; exact Hy]. }
    destruct Hx as [->|(c' & n' & sub & Heq & Hw)].
    + intros (t & p & m & g & s & Hin & _). destruct Hin.
    + injection Heq as <- <- <-. inversion Hw as [? Hin|c2 n2 sub2 ? Hm Hw2]; subst; [apply (Hall x Hin); left; reflexivity|]. apply (Hall _ Hm). right. exists c2, n2, sub2. auto.
  - destruct Hx as [->|(c' & n' & sub & Heq & _)]; [|discriminate]. destruct (simplify_fields chk fs) as [ss|] eqn:E; [|discriminate]. cbn [option_map] in H. injection H as <-.
    cbn [ok_def_at] in Ho. apply andb_true_iff in Ho as [_ Ho]. apply andb_true_iff in Ho as [_ Ho].
    intros (t & p & m & g' & s & Hin & Hp & Hs & Hr). cbn [mentioned field_lists flat_map] in Hin. rewrite app_nil_r in Hin. exact (ok_ty_usable _ _ _ _ _ (fields_paths _ _ _ E Ho t Hin) Hp Hs Hr).
  - destruct Hx as [->|(c' & n' & sub & Heq & _)]; [|discriminate]. destruct (simplify_variants chk 1 (p_values vs)) as [ws|] eqn:E; [|discriminate]. cbn [option_map] in H. injection H as <-.
    cbn [ok_def_at] in Ho. apply andb_true_iff in Ho as [_ Ho]. apply andb_true_iff in Ho as [_ Ho]. apply simplify_variants_comment in E.
    intros (t & p & m & g' & s & Hin & Hp & Hs & Hr). cbn [mentioned field_lists] in Hin. apply in_flat_map in Hin as (fs & Hfs & Hin). apply in_map_iff in Hfs as (v & <- & Hv).
    assert (Hok : ok_ty (simplify_type t) = true).
    { clear -E Ho Hv Hin. induction E as [|v0 x l ws (_ & _ & Es) E IHE]; [destruct Hv|]. cbn [forallb] in Ho. apply andb_true_iff in Ho as [H1 H2]. destruct Hv as [->|Hv]; [|exact (IHE H2 Hv)].
      unfold ok_variant_at in H1. apply andb_true_iff in H1 as [_ H1]. exact (fields_paths _ _ _ Es H1 t Hin). }
    exact (ok_ty_usable _ _ _ _ _ Hok Hp Hs Hr).
  - destruct Hx as [->|(c' & n' & sub & Heq & _)]; [|discriminate]. injection H as <-. cbn [ok_def_at] in Ho. apply andb_true_iff in Ho as [_ Ho]. apply andb_true_iff in Ho as [_ Ho].
    intros (u & p & m & g' & s & Hin & Hp & Hs & Hr). destruct Hin as [<-|[]]. exact (ok_ty_usable _ _ _ _ _ Ho Hp Hs Hr).
  - destruct Hx as [->|(c' & n' & sub & Heq & _)]; [|discriminate]. assert (Hc : const_content t) by (apply (Hgen (PConst c n t v)); left; reflexivity).
    intros (u & p & m & g' & s & Hin & Hp & _). destruct Hin as [<-|[]]. destruct t; try destruct Hc. inversion Hp as [|y z _ Hy _]; subst. destruct Hy.
  - destruct Hx as [->|(c' & n' & sub & Heq & _)]; [|discriminate]. intros (u & p & m & g' & s & Hin & _). destruct Hin.
Qed.
(** Names that can be used in paths. *)
Lemma known_refs d : ~ starts_with_try d -> ~ path_keyword d -> refs_known d.
Proof.
  intros Ht Hk t path n g Hin Hp. assert (Hseg : forall s, In s path -> is_ident s = true \/ In s [w "self"; w "super"; w "crate"; w "Self"; w "try"]).
  { intros s Hs. destruct (is_ident s) eqn:E; [left; reflexivity|]. right. destruct (one_of [w "self"; w "super"; w "crate"; w "Self"; w "try"] s) eqn:Eo; [apply one_of_iff; exact Eo|].
    exfalso. apply Hk. exists t, path, n, g, s. repeat (split; [assumption|]). split; [apply reserved_iff; exact E|]. intros Hx. apply one_of_iff in Hx. congruence. }
  destruct path as [|y path]; [exact I|]. split.
  - unfold segment_name. destruct (Hseg y (or_introl eq_refl)) as [-> |H]; [reflexivity|]. apply orb_true_iff. right. apply one_of_iff. cbn [In] in H. destruct H as [<-|[<-|[<-|[<-|[<-|[]]]]]]; cbn [In]; auto.
    exfalso. apply Ht. exists t, path, n, g. auto.
  - intros z Hz. unfold segment_name. destruct (Hseg z (or_intror Hz)) as [-> |H]; [reflexivity|]. apply orb_true_iff. right. apply one_of_iff. exact H.
Qed.
(** What syn lets through in a positional field of a variant. *)
Lemma variant_strict chk v x : simplify_fields chk (pv_fields v) = Some (sv_fields x) -> ok_variant_at false x = true ->
  (forall path m gs, ~ In (PExternal (w "pub" :: path) m gs) (field_types (pv_fields v))) -> ok_variant_at true x = true.
Proof.
  intros Es Ho Hpub. unfold ok_variant_at in *. apply andb_true_iff in Ho as [H1 Ho]. rewrite H1. cbn [andb]. pose proof (simplify_fields_types _ _ _ Es) as E.
  unfold ok_fields in *. destruct (ss_kind (sv_fields x)); try exact Ho. rewrite forallb_forall in *. intros f Hf. specialize (Ho f Hf).
  assert (Hin : In (sf_ty f) (map simplify_type (field_types (pv_fields v)))) by (rewrite <- E; apply in_map; exact Hf). apply in_map_iff in Hin as (t & Et & Hin).
  unfold ok_unnamed in *. apply orb_true_iff in Ho as [-> |Ho]; [reflexivity|]. exfalso. cbn [negb andb] in Ho. rewrite <- Et in Ho.
  destruct t as [p|t|k u|t|t|t|ts|t m|[|s pa] name g]; rewrite ?simplify_tuple in Ho; cbn [simplify_type] in Ho; try discriminate; destruct (simplify_external_any (s :: pa) name g) as [gs Eg] || idtac.
  - destruct (simplify_external_any [] name g) as [gs Eg]. cbn [simplify_type] in Eg. rewrite Eg in Ho. discriminate.
  - change (simplify_type (PExternal (s :: pa) name g)) with (simplify_type (PExternal (s :: pa) name g)) in Ho. cbn [simplify_type] in Eg. rewrite Eg in Ho. apply andb_true_iff in Ho as [Ho _]. apply str_eqb_eq in Ho. subst s. exact (Hpub pa name g Hin).
Qed.
Lemma def_strict chk d : forall o, simplify_definition chk d = Some o -> ok_def_at false o = true ->
  (forall c a n g vs v path m gs, below (PEnum c a n g vs) d -> In v (p_values vs) -> ~ In (PExternal (w "pub" :: path) m gs) (field_types (pv_fields v))) -> ok_def_at true o = true.
Proof.
  induction d as [c n ds IH|c a n g fs|c a n g vs|c n g t|c n t v|sg el] using pdef_ind2; intros o H Ho Hpub; cbn [simplify_definition] in H.
  - destruct (all_opt _ ds) as [os|] eqn:E; [|discriminate]. cbn [option_map] in H. injection H as <-. apply all_opt_some in E. cbn [ok_def_at] in *. apply andb_true_iff in Ho as [Hn Ho]. rewrite Hn. cbn [andb].
    assert (Hp : forall d, In d ds -> forall c a n g vs v path m gs, below (PEnum c a n g vs) d -> In v (p_values vs) -> ~ In (PExternal (w "pub" :: path) m gs) (field_types (pv_fields v))).
    { intros d Hd c' a' n' g' vs' v' path m gs Hb. apply (Hpub c' a' n' g' vs' v' path m gs). right. exists c, n, ds. split; [reflexivity|]. eapply below_within; eassumption. }
    clear -E IH Ho Hp. induction E as [|d o ds os Hd E IHE]; [reflexivity|]. cbn [forallb] in *. apply andb_true_iff in Ho as [H1 H2]. apply andb_true_iff. split.
    + apply (IH d (or_introl eq_refl) o Hd H1). apply Hp. left. reflexivity.
    + apply IHE; [intros y Hy; apply IH; right; exact Hy|exact H2|intros y Hy; apply Hp; right; exact Hy].
  - destruct (simplify_fields chk fs) as [ss|]; [|discriminate]. cbn [option_map] in H. injection H as <-. exact Ho.
  - destruct (simplify_variants chk 1 (p_values vs)) as [ws|] eqn:E; [|discriminate]. cbn [option_map] in H. injection H as <-. apply simplify_variants_comment in E. cbn [ok_def_at] in *.
    apply andb_true_iff in Ho as [H1 Ho]. apply andb_true_iff in Ho as [H2 Ho]. rewrite H1, H2. cbn [andb].
    assert (Hp : forall v path m gs, In v (p_values vs) -> ~ In (PExternal (w "pub" :: path) m gs) (field_types (pv_fields v))) by (intros v path m gs; apply (Hpub c a n g vs); left; reflexivity).
    clear -E Ho Hp. induction E as [|v x l ws (_ & _ & Es) E IHE]; [reflexivity|]. cbn [forallb] in *. apply andb_true_iff in Ho as [H1 H2]. apply andb_true_iff. split.
    + apply (variant_strict chk v x Es H1). intros path m gs. apply Hp. left. reflexivity.
    + apply IHE; [exact H2|]. intros y path m gs Hy. apply Hp. right. exact Hy.
  - injection H as <-. exact Ho.
  - injection H as <-. exact Ho.
  - injection H as <-. exact Ho.
Qed.
(** What the compiler makes of a schema can be written down. *)
Lemma dec_ident x : is_ident (110 :: x) = true.
Proof. reflexivity. Qed.
Lemma fields_tidy chk fs ss : simplify_fields chk fs = Some ss -> RustFileReadProofs.tidy_fields ss = true.
Proof.
  intros H. destruct fs as [l|l|]; cbn [simplify_fields] in H; [| |injection H as <-; reflexivity]; destruct (draw _ _ _) as [ids|]; try discriminate; cbn [option_map] in H; injection H as <-; unfold RustFileReadProofs.tidy_fields; cbn [ss_kind ss_fields]; [reflexivity|].
  apply forallb_forall. intros f Hf. apply in_map_iff in Hf as ((k & u & i) & <- & _). reflexivity.
Qed.
Lemma def_tidy chk d : forall o, DefOk d -> simplify_definition chk d = Some o -> RustFileReadProofs.tidy o = true.
Proof.
  induction d as [c n ds IH|c a n g fs|c a n g vs|c n g t|c n t v|sg el] using pdef_ind2; intros o Hok H; cbn [simplify_definition] in H.
  - destruct (all_opt _ ds) as [os|] eqn:E; [|discriminate]. cbn [option_map] in H. injection H as <-. apply all_opt_some in E. cbn [RustFileReadProofs.tidy]. destruct Hok as (_ & _ & Hsub). pose proof (fold_all _ _ Hsub) as Hs. clear Hsub.
    induction E as [|d o ds os Hd E IHE]; [reflexivity|]. cbn [forallb]. apply andb_true_iff. split; [apply (IH d (or_introl eq_refl) o); [apply Hs; left; reflexivity|exact Hd]|].
    apply IHE; [intros y Hy; apply IH; right; exact Hy|intros y Hy; apply Hs; right; exact Hy].
  - destruct (simplify_fields chk fs) as [ss|] eqn:E; [|discriminate]. cbn [option_map] in H. injection H as <-. exact (fields_tidy _ _ _ E).
  - destruct (simplify_variants chk 1 (p_values vs)) as [ws|] eqn:E; [|discriminate]. cbn [option_map] in H. injection H as <-. apply simplify_variants_comment in E. cbn [RustFileReadProofs.tidy]. clear -E.
    induction E as [|v x l ws (_ & _ & Es) E IHE]; [reflexivity|]. cbn [forallb]. rewrite (fields_tidy _ _ _ Es), IHE. reflexivity.
  - injection H as <-. reflexivity.
  - injection H as <-. reflexivity.
  - injection H as <-. destruct Hok as (Hne & _). cbn [RustFileReadProofs.tidy]. destruct sg; [contradiction|reflexivity].
Qed.
End Defs.

Section Schema.
Context {F : Type}.
Variables (bc : bool) (float_text : F -> str) (unprintable : N -> bool).
Notation schema_tokens := (RustFile.schema_tokens bc float_text unprintable).
Lemma floats_ready (d : sdef F) : (forall f, In f (floats d) -> number_text (float_text f)) -> RustFileReadProofs.floats float_text d.
Proof.
  induction d as [c n ds IH|d Hno] using PropGoOut.sdef_ind2; intros H.
  - cbn [RustFileReadProofs.floats]. apply RustFileReadProofs.floats_all. intros d Hd. apply IH; [exact Hd|]. intros f Hf. apply H. cbn [floats]. apply in_flat_map. exists d. auto.
  - destruct d as [c n ds|c n g fs|c n g vs|c n g t|c n t v|segs e]; try exact I; [exfalso; eapply Hno; reflexivity|]. destruct v; try exact I. apply H. left. reflexivity.
Qed.
Lemma down (ds : list (pdef F)) (P : pdef F -> Prop) : (forall d, In d ds -> forall x, below x d -> P x) -> forall x, within x ds -> P x.
Proof.
  intros H x Hw. inversion Hw as [? Hin|c2 n2 sub2 ? Hm Hw2]; subst; [apply (H x Hin); left; reflexivity|]. apply (H _ Hm). right. exists c2, n2, sub2. auto.
Qed.
Lemma zip (P : pdef F -> sdef F -> Prop) chk (ds : list (pdef F)) os : Forall2 (fun d o => simplify_definition chk d = Some o) ds os ->
  (forall d o, In d ds -> simplify_definition chk d = Some o -> P d o) -> Forall2 P ds os.
Proof.
  induction 1 as [|d o ds os Hd E IH]; intros H; constructor; [apply H; [left; reflexivity|exact Hd]|]. apply IH. intros x y Hx. apply H. right. exact Hx.
Qed.
Lemma every (Q : sdef F -> bool) (P : pdef F -> Prop) ds os : Forall2 (fun d o => Q o = true -> forall x, below x d -> P x) ds os -> forallb Q os = true -> forall x, within x ds -> P x.
Proof.
  intros E Ho. apply down. induction E as [|d o ds os Hd E IH]; [intros d []|]. cbn [forallb] in Ho. apply andb_true_iff in Ho as [H1 H2]. intros y [<-|Hy]; [exact (Hd H1)|exact (IH H2 y Hy)].
Qed.
Lemma file_exact chk (s : pschema F) o : SchemaOk s -> simplify_schema chk s = Some o -> forallb generates (snd o) = true ->
  (forall f, In f (flat_map floats (snd o)) -> number_text (float_text f)) -> pub_known (ps_defs s) ->
  (file_parses (schema_tokens (snd o)) = true <-> all_usable (ps_defs s)).
Proof.
  intros Hs H Hg Hfl Hpub. destruct o as [c out]. cbn [snd] in *. assert (Hgen := proj1 (generates_schema chk s c out H) Hg).
  unfold simplify_schema in H. destruct (all_opt _ _) as [os|] eqn:E; [|discriminate]. cbn [option_map] in H. injection H as <- <-. apply all_opt_some in E. destruct Hs as [_ Hd]. rewrite Forall_forall in Hd.
  assert (Hbelow : forall d, In d (ps_defs s) -> forall x, below x d -> within x (ps_defs s)) by (intros d Hin x Hx; eapply below_within; eassumption).
  assert (Hready : RustFileReadProofs.ready float_text os).
  { split; [exact Hg|]. split.
    - assert (Z := zip (fun d o => RustFileReadProofs.tidy o = true) chk _ _ E (fun d o Hin Ho => def_tidy chk d o (Hd d Hin) Ho)). clear -Z. induction Z as [|d o ds os Ho Z IH]; [reflexivity|]. cbn [forallb]. rewrite Ho, IH. reflexivity.
    - intros d Hin. apply floats_ready. intros f Hf. apply Hfl, in_flat_map. exists d. auto. }
  split.
  - intros Hp. pose proof (RustFileReadProofs.file_sound bc float_text unprintable os Hready Hp) as Ho.
    assert (Z1 : forall x, within x (ps_defs s) -> ~ takes_keyword x /\ ~ starts_with_try x).
    { revert Ho. apply every. apply (zip (fun d o => ok_def_at false o = true -> forall x, below x d -> ~ takes_keyword x /\ ~ starts_with_try x) chk _ _ E).
      intros d o Hin Hdo. apply (def_spec false chk d o (Hd d Hin) Hdo). intros x Hx. apply Hgen. exact (Hbelow d Hin x Hx). }
    assert (Ht : forallb (ok_def_at true) os = true).
    { assert (Z := zip (fun d o => ok_def_at false o = true -> ok_def_at true o = true) chk _ _ E). clear Hready Hg Hfl Hp. revert Ho.
      assert (Z' : Forall2 (fun d o => ok_def_at false o = true -> ok_def_at true o = true) (ps_defs s) os).
      { apply Z. intros d o Hin Hdo Hf. apply (def_strict chk d o Hdo Hf). intros c' a g n vs v path m gs Hb Hv Hx.
        destruct (Hpub c' a g n vs v path m gs (Hbelow d Hin _ Hb) Hv Hx) as (c2 & sub & Hw). destruct (Z1 _ Hw) as [Hk _]. apply Hk. cbn [takes_keyword]. split; [vm_compute; tauto|discriminate]. }
      clear -Z'. induction Z' as [|d o ds os Ho Z IH]; [trivial|]. cbn [forallb]. intros H. apply andb_true_iff in H as [H1 H2]. rewrite (Ho H1), (IH H2). reflexivity. }
    assert (Z2 : forall x, within x (ps_defs s) -> ~ path_keyword x).
    { revert Ht. apply every. apply (zip (fun d o => ok_def_at true o = true -> forall x, below x d -> ~ path_keyword x) chk _ _ E).
      intros d o Hin Hdo. apply (def_paths chk d o Hdo). intros x Hx. apply Hgen. exact (Hbelow d Hin x Hx). }
    intros d Hw. split; [apply (Z1 d Hw)|]. split; [apply (Z1 d Hw)|exact (Z2 d Hw)].
  - intros Hu. apply (RustFileReadProofs.file_complete bc float_text unprintable os Hready).
    assert (Z : Forall2 (fun d o => ok_def_at true o = true) (ps_defs s) os).
    { apply (zip (fun d o => ok_def_at true o = true) chk _ _ E). intros d o Hin Hdo. apply (def_spec true chk d o (Hd d Hin) Hdo); [intros x Hx; apply Hgen; exact (Hbelow d Hin x Hx)|].
      intros x Hx. destruct (Hu x (Hbelow d Hin x Hx)) as (U1 & U2 & U3). split; [exact U1|]. apply known_refs; assumption. }
    clear -Z. induction Z as [|d o ds os Ho Z IH]; [reflexivity|]. cbn [forallb]. rewrite Ho, IH. reflexivity.
Qed.
End Schema.

(** * C75 *)

(** The file generated for a schema parses as Rust exactly if no name and no path in it has a keyword in its way. *)
Theorem C75_file_parses : forall (F : Type) (parse_f64 : str -> option F) chk bytes_crate finite float_text unprintable i (s : pschema F) o,
  text i -> schema_parse parse_f64 i = Some s -> simplify_schema chk s = Some o -> expressible finite (ps_defs s) ->
  (forall f, finite f = true -> decimal (float_text f)) -> pub_known (ps_defs s) ->
  (file_parses (RustFile.schema_tokens bytes_crate float_text unprintable (snd o)) = true <-> all_usable (ps_defs s)).
Proof.
  intros F pf chk bc finite ft up i s o Hi Hp Ho He Hft Hk. apply (expressible_iff finite chk s o Ho) in He. apply andb_true_iff in He as [Hg Hfin].
  apply (file_exact bc ft up chk); try assumption; [eapply C52_well_formed; eassumption|]. intros f Hf. apply decimal_number, Hft. rewrite forallb_forall in Hfin. apply Hfin. exact Hf.
Qed.
Print Assumptions C75_file_parses.

(** Resolution makes sure of the paths that start with [pub]. *)
Lemma resolved_pub {F} (values : list (str * pschema F)) nm s : resolved values -> In (nm, s) values -> pub_known (ps_defs s).
Proof.
  intros Hres Hin c a n g vs v path m gs Hw Hv Hf.
  assert (Hat : forall x (ds : list (pdef F)), within x ds -> exists at_ m0, module_at ds at_ m0 /\ In x m0).
  { clear. intros x ds H. induction H as [ds0 Hx|c n sub ds0 Hm Hw (at_ & m0 & H1 & H2)]; [exists [], ds0; split; [constructor|exact Hx]|]. exists (n :: at_), m0. split; [econstructor; eassumption|exact H2]. }
  destruct (Hat _ _ Hw) as (at_ & m0 & H1 & H2).
  apply (C75_resolved_paths F values nm s m0 (w "pub" :: path) m (args gs) (w "pub") Hres Hin); [|left; reflexivity].
  exists at_, (PEnum c a n g vs), (PExternal (w "pub" :: path) m gs), gs. split; [exact H1|]. split; [exact H2|]. split; [cbn [field_lists]; apply in_flat_map; exists (pv_fields v); split; [apply in_map; exact Hv|exact Hf]|].
  split; [apply part_self|]. split; [reflexivity|]. intros [Hx _]. discriminate.
Qed.

(** mabo-build's generator with the whole file: lib.rs L184-215. *)
Definition rust_file_gen {F : Type} (bc : bool) (finite : F -> bool) (float_text : F -> str) (unprintable : N -> bool) (unparse : list RustFile.rt -> str) (o : comment * list (sdef F)) : gres :=
  if forallb generates (snd o) && forallb finite (flat_map floats (snd o)) then
    let ts := RustFile.schema_tokens bc float_text unprintable (snd o) in if file_parses ts then GCode (unparse ts) else GInvalid
  else GPanic.

(** How a build ends, of every project of differently named files that passed all checks: it writes the files of the schemas one after the
    other until it finds one it has no code for (a panic) or one whose code does not parse, which is one with a keyword in the way. *)
Theorem C75_build : forall (F : Type) (parse_f64 : str -> option F) pick chk order bytes_crate finite float_text unprintable unparse out read files values,
  readable read -> distinct_stems files -> some_order order -> (forall f, finite f = true -> decimal (float_text f)) ->
  front parse_f64 pick chk order read files = COk values ->
  let fine v := expressible finite (ps_defs (snd v)) /\ all_usable (ps_defs (snd v)) in
  let written l := map (fun v => out ++ [fst v ++ tx ".rs"]) l in
  let '(ws, e) := compile parse_f64 pick chk order (rust_file_gen bytes_crate finite float_text unprintable unparse) out read files in
  match e with
  | BDone => (forall v, In v values -> fine v) /\ map fst ws = written values
  | BInvalidCode n => exists before s after, values = before ++ (n, s) :: after /\ (forall v, In v before -> fine v)
      /\ expressible finite (ps_defs s) /\ ~ all_usable (ps_defs s) /\ map fst ws = written before
  | BPanic => exists before n s after, values = before ++ (n, s) :: after /\ (forall v, In v before -> fine v)
      /\ ~ expressible finite (ps_defs s) /\ map fst ws = written before
  | BErr _ => False
  end.
Proof.
  intros F pf pick chk order bc finite ft up unparse out read files values Hr Hst Hord Hft Hf fine written. unfold compile. rewrite Hf.
  destruct (front_loaded pf _ _ _ _ _ _ Hf) as (Hl & Hv & Hrs). pose proof (loaded_ok pf _ _ _ Hr Hl) as Hok.
  assert (Hproj : project pick chk values) by (eapply loaded_project; eassumption).
  pose proof (proj1 (C35_resolution_exact_partial F pick chk order values Hproj Hord) Hrs) as Hres.
  assert (Hk : forall n s, In (n, s) values -> pub_known (ps_defs s)) by (intros n s Hin; exact (resolved_pub values n s Hres Hin)).
  clear Hl Hf Hrs Hproj Hres. set (gen := rust_file_gen bc finite ft up unparse).
  induction values as [|[n s] values IH]; cbn [emit]; [split; [intros v []|reflexivity]|].
  assert (Hs : SchemaOk s) by (apply (Hok n s); left; reflexivity).
  destruct (simplify_schema_total pick chk s (SchemaOk_u32 s Hs) (Hv _ (or_introl eq_refl))) as (c & o & Ho). rewrite Ho.
  pose proof (expressible_iff finite chk s _ Ho) as He. unfold gen at 1. unfold rust_file_gen.
  destruct (forallb generates (snd (c, o)) && forallb finite (flat_map floats (snd (c, o)))) eqn:Eg.
  - assert (Hex : expressible finite (ps_defs s)) by (apply He; reflexivity). apply andb_true_iff in Eg as [Eg Efin].
    assert (Hfl : forall f, In f (flat_map floats (snd (c, o))) -> number_text (ft f)) by (intros f Hf; apply decimal_number, Hft; rewrite forallb_forall in Efin; exact (Efin f Hf)).
    pose proof (file_exact bc ft up chk s (c, o) Hs Ho Eg Hfl (Hk n s (or_introl eq_refl))) as Hn. cbv zeta.
    destruct (file_parses (RustFile.schema_tokens bc ft up (snd (c, o)))).
    + assert (Hfine : fine (n, s)) by (split; [exact Hex|apply Hn; reflexivity]).
      assert (IH' := IH (fun v H => Hv v (or_intror H)) (fun m s' H => Hok m s' (or_intror H)) (fun m s' H => Hk m s' (or_intror H))). clear IH.
      destruct (emit chk gen out values) as [ws e]. destruct e as [|e|m|].
      * destruct IH' as [H1 H2]. split; [intros v [<-|H]; [exact Hfine|apply H1; exact H]|]. cbn [map fst written]. unfold written in *. cbn [map fst]. rewrite H2. reflexivity.
      * exact IH'.
      * destruct IH' as (before & s' & after & -> & H1 & H2 & H3 & H4). exists ((n, s) :: before), s', after. split; [reflexivity|].
        split; [intros v [<-|H]; [exact Hfine|apply H1; exact H]|]. split; [exact H2|]. split; [exact H3|]. unfold written in *. cbn [map fst]. rewrite H4. reflexivity.
      * destruct IH' as (before & m & s' & after & -> & H1 & H2 & H3). exists ((n, s) :: before), m, s', after. split; [reflexivity|].
        split; [intros v [<-|H]; [exact Hfine|apply H1; exact H]|]. split; [exact H2|]. unfold written in *. cbn [map fst]. rewrite H3. reflexivity.
    + exists [], s, values. split; [reflexivity|]. split; [intros v []|]. split; [exact Hex|]. split; [|reflexivity]. intros H. apply Hn in H. discriminate.
  - exists [], n, s, values. split; [reflexivity|]. split; [intros v []|]. split; [|reflexivity]. intros H. apply He in H. discriminate.
Qed.
Print Assumptions C75_build.

(** A project with everything in it, and one with a path that the compiler does not look at. *)
Definition plain (s : str) : bool := match s with [] => false | _ => forallb (fun c => (48 <=? c) && (c <=? 57)) s end.
Definition demo_float (s : str) : bool :=
  let (a, r) := RustFile.span_of RustFile.digit (match s with 45 :: r => r | _ => s end) in plain a && match r with 46 :: b => plain b | _ => false end.
Lemma plain_digits s : plain s = true -> digits s.
Proof.
  intros H. destruct s as [|c s]; [discriminate|]. split; [discriminate|]. unfold plain in H. rewrite forallb_forall in H. apply Forall_forall. intros x Hx. apply H, andb_true_iff in Hx as [H1 H2]. apply N.leb_le in H1, H2. auto.
Qed.
Lemma span_split f s : fst (RustFile.span_of f s) ++ snd (RustFile.span_of f s) = s.
Proof. induction s as [|c s IH]; [reflexivity|]. cbn [RustFile.span_of]. destruct (f c); [|reflexivity]. destruct (RustFile.span_of f s) as [a b]. cbn [fst snd app] in *. rewrite IH. reflexivity. Qed.
Lemma demo_floats s : demo_float s = true -> decimal s.
Proof.
  unfold demo_float. assert (Hs : exists sign r, (sign = [] \/ sign = [45]) /\ s = sign ++ r /\ (match s with 45 :: r => r | _ => s end) = r).
  { destruct s as [|c s]; [exists [], []; auto|]. destruct (N.eq_dec c 45) as [->|Hc]; [exists [45], s; auto|]. exists [], (c :: s). split; [auto|]. split; [reflexivity|]. destruct c as [|p]; [reflexivity|].
    repeat (destruct p as [p|p|]; try reflexivity). contradiction. }
  destruct Hs as (sign & r & Hs & E & ->). pose proof (span_split RustFile.digit r) as Er. destruct (RustFile.span_of RustFile.digit r) as [a t]. cbn [fst snd] in Er. intros H. apply andb_true_iff in H as [Ha Hb].
  destruct t as [|x b]; [discriminate|]. assert (x = 46 /\ plain b = true) as [-> Hb'].
  { destruct (N.eq_dec x 46) as [->|Hx]; [auto|]. exfalso. revert Hb. destruct x as [|p]; [discriminate|]. repeat (destruct p as [p|p|]; try discriminate). contradiction. }
  exists sign, a, b. split; [exact Hs|]. split; [apply plain_digits; exact Ha|]. split; [apply plain_digits; exact Hb'|]. rewrite E, <- Er. reflexivity.
Qed.
Definition demo_files : list sfile := [File [] (tx "a"); File [] (tx "b")].
Definition demo_disk : path -> option str := fun p =>
  if path_eqb p [tx "a.mabo"] then Some (tx "use b::Point; /// All of it
mod inner { struct A(u8 @3, vec<string>) } enum Shape<T> { Empty @1, Round(T @1, inner::A @2) @2, Named { at: Point @1, more: [u8; 4] @3 } @3 } type Alias = inner::A; const HALF: f64 = -0.5;") else
  if path_eqb p [tx "b.mabo"] then Some (tx "struct Point { x: u32 @1, y: option<u32> @2 }") else None.
Definition demo_build (read : path -> option str) files := compile (F := str) (@Some str) (fun _ => 0%nat) true (fun l => l)
  (rust_file_gen false demo_float (fun s => s) (fun _ => false) (fun _ => [])) [] read files.
Definition alias_disk : path -> option str := fun p => if path_eqb p [tx "a.mabo"] then Some (tx "type A = loop::B;") else None.
Example C75_build_ex :
  readable demo_disk /\ distinct_stems demo_files /\ some_order (fun l => l) /\ (forall f, demo_float f = true -> decimal f)
  /\ (exists values, front (@Some str) (fun _ => 0%nat) true (fun l => l) demo_disk demo_files = COk values /\ length values = 2%nat)
  /\ demo_build demo_disk demo_files = ([([tx "a.rs"], []); ([tx "b.rs"], [])], BDone)
  /\ (exists values, front (@Some str) (fun _ => 0%nat) true (fun l => l) alias_disk [File [] (tx "a")] = COk values)
  /\ demo_build alias_disk [File [] (tx "a")] = ([], BInvalidCode (tx "a")).
Proof.
  split; [|split; [|split; [|split; [exact demo_floats|split; [|split; [vm_compute; reflexivity|split; [|vm_compute; reflexivity]]]]]]].
  - intros p i H. unfold demo_disk in H. destruct (path_eqb p _); [injection H as <-; apply tx_text; vm_compute; reflexivity|]. destruct (path_eqb p _); [injection H as <-; apply tx_text; vm_compute; reflexivity|discriminate].
  - vm_compute. repeat constructor; cbn [In]; intros H; repeat (destruct H as [H|H]; [discriminate|]); exact H.
  - intros l x. tauto.
  - eexists. split; [vm_compute; reflexivity|reflexivity].
  - eexists. vm_compute. reflexivity.
Qed.
Print Assumptions C75_build_ex.
