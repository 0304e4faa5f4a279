(** Proofs about RustFileRead.v: which generated files parse. *)
From Verif Require Import Base Varint Wire Codec Syntax Parser Compiler Lower RustCode RustFile RustRead RustMeans RustReadProofs RustReadProofs3 RustReadProofs4 RustFileRead.
From Verif Require RustTokens RustTokensProofs LowerProofs PropGoOut.
Require Coq.Strings.String.
Import Coq.Strings.String.StringSyntax.
Local Open Scope N_scope.
Notation tt := RustTokens.tt.
Notation reads := RustTokensProofs.reads.
Notation stops := RustTokensProofs.stops.

(** * Readers of RustTokens.v *)
Lemma via_app p a b : p (map tt_of a ++ map tt_of b) = Some (map tt_of b) -> via p (a ++ b) = Some b.
Proof.
  intros H. unfold via. rewrite map_app, H. cbn [option_map]. rewrite app_length, map_length. replace (length a + length b - length b)%nat with (length a) by lia.
  f_equal. clear. induction a as [|x a IH]; [reflexivity|exact IH].
Qed.
Lemma via_none p a b : p (map tt_of a ++ map tt_of b) = None -> via p (a ++ b) = None.
Proof. intros H. unfold via. rewrite map_app, H. reflexivity. Qed.
Lemma via_reads p a ok full b : reads p (map tt_of a) ok full (map tt_of b) ->
  (via p (a ++ b) = None \/ (ok = true /\ via p (a ++ b) = Some b)) /\ (ok = true -> full -> via p (a ++ b) = Some b).
Proof.
  intros [[H|[Ho H]] H2]; (split; [|intros H3 H4; apply via_app, H2; assumption]).
  - left. apply via_none. exact H.
  - right. split; [exact Ho|apply via_app; exact H].
Qed.
(** What can follow a type. *)
Definition ends (ts : list rt) : Prop := stops (map tt_of ts).
Lemma types_more a b : exists n, types (a ++ b) = RustTokens.p_ty (S (S (S (RustTokens.tsizes (map tt_of a) + n)))).
Proof. exists (RustTokens.tsizes (map tt_of b)). unfold types. rewrite map_app, RustTokensProofs.tsizes_app. reflexivity. Qed.

(** * Types in headers *)
Lemma abs_path f l last rest : forallb (RustTokens.segment_name false) (l ++ [last]) = true -> stops rest ->
  RustTokens.p_ty (S f) (flat_map (fun s => [RustTokens.TP RustTokens.PnPathSep; RustTokens.TId s]) (l ++ [last]) ++ rest) = Some rest.
Proof.
  intros H Hs. destruct (l ++ [last]) as [|s0 l0] eqn:E; [destruct l; discriminate|]. clear E. cbn [flat_map app RustTokens.p_ty].
  assert (G : forall m s l, (length l < m)%nat -> RustTokens.segment_name false s = true -> forallb (RustTokens.segment_name false) l = true ->
     RustTokens.p_path m (RustTokens.p_ty f) false (RustTokens.TId s :: flat_map (fun s => [RustTokens.TP RustTokens.PnPathSep; RustTokens.TId s]) l ++ rest) = Some rest).
  { clear -Hs. intros m s l. revert m s. induction l as [|y l IH]; intros [|m] s Hm H1 H2; try (cbn [length] in Hm; lia); cbn [RustTokens.p_path flat_map app]; rewrite H1.
    - destruct rest as [|[ | [] | | ] rest]; try contradiction; reflexivity.
    - cbn [forallb] in H2. apply andb_true_iff in H2 as [H2 H3]. apply IH; try assumption. cbn [length] in Hm. lia. }
  cbn [forallb] in H. apply andb_true_iff in H as [H1 H2]. apply G; [|assumption..]. cbn [length]. rewrite app_length.
  assert (length l0 <= length (flat_map (fun s => [RustTokens.TP RustTokens.PnPathSep; RustTokens.TId s]) l0))%nat; [|lia]. clear. induction l0; cbn [flat_map app length]; lia.
Qed.
Definition abs (l : list str) : list rt := flat_map (fun s => [sep2; W s]) l.
Lemma abs_tt l : map tt_of (abs l) = flat_map (fun s => [RustTokens.TP RustTokens.PnPathSep; RustTokens.TId s]) l.
Proof. unfold abs. induction l as [|s l IH]; [reflexivity|]. cbn [flat_map map app]. rewrite IH. reflexivity. Qed.
Lemma abs_read l rest : l <> [] -> forallb (RustTokens.segment_name false) l = true -> ends rest -> p_type_path (abs l ++ rest) = Some rest.
Proof.
  intros Hl H Hs. destruct (exists_last Hl) as (l' & x & ->). assert (E : p_type (abs (l' ++ [x]) ++ rest) = Some rest).
  { unfold p_type. apply via_app. destruct (types_more (abs (l' ++ [x])) rest) as (n & ->). rewrite abs_tt. apply abs_path; assumption. }
  destruct (l' ++ [x]) as [|s l]; [contradiction|]. exact E.
Qed.
(** The name of a definition with its parameters. *)
Section Name.
Variables (bc : bool) (name : str) (g : list str).
Hypotheses (Hn : RustTokens.is_ident name = true) (Hg : forallb RustTokens.is_ident g = true).
Definition self_sty : sty := SExternal [] name (map (fun n => SExternal [] n []) g).
Lemma commas_tt : map tt_of (terminated comma (map (fun n => [W n]) g)) = RustTokens.commas (fun n => [RustTokens.TId n]) g.
Proof. clear. induction g as [|n l IH]; [reflexivity|]. cbn [map]. rewrite terminated_cons, map_app. cbn [map]. rewrite IH. reflexivity. Qed.
Lemma params_tt : map tt_of (params_of g) = RustTokens.emit_generics g.
Proof. clear. unfold params_of, RustTokens.emit_generics. destruct g as [|n l] eqn:E; [reflexivity|]. rewrite <- E. rewrite tt_angle, commas_tt. reflexivity. Qed.
Lemma self_tt : map tt_of (W name :: params_of g) = RustTokens.emit_ty bc self_sty.
Proof.
  clear. cbn [map]. rewrite params_tt. unfold self_sty. cbn [RustTokens.emit_ty flat_map app]. unfold RustTokens.emit_generics.
  assert (H : forall l, RustTokens.commas (fun n => [RustTokens.TId n]) l = RustTokens.commas (RustTokens.emit_ty bc) (map (fun n => SExternal [] n []) l)).
  { intros l. unfold RustTokens.commas. induction l as [|m k IH]; [reflexivity|]. cbn [map flat_map]. rewrite <- IH. reflexivity. }
  destruct g as [|n l]; [reflexivity|]. rewrite H. reflexivity.
Qed.
Lemma self_read rest : ends rest -> p_type (W name :: params_of g ++ rest) = Some rest.
Proof.
  intros Hs. change (W name :: params_of g ++ rest) with ((W name :: params_of g) ++ rest). unfold p_type. apply via_app. destruct (types_more (W name :: params_of g) rest) as (n & ->). rewrite (self_tt).
  destruct (RustTokensProofs.ty_reads bc self_sty) with (f := S (S (S (RustTokens.tsizes (RustTokens.emit_ty bc self_sty) + n)))) (rest := map tt_of rest) as [_ H]; [|exact Hs|].
  - unfold self_sty. cbn [def_type_ok]. clear. induction g as [|m l IH]; [reflexivity|]. exact IH.
  - apply H.
    + unfold self_sty. cbn [RustTokensProofs.ok_ty RustTokensProofs.path_ok]. unfold RustTokens.segment_name. rewrite Hn. cbn [orb andb].
      assert (Ht : RustTokens.takes_args name = true).
      { unfold RustTokens.takes_args. destruct (RustTokens.one_of _ name) eqn:Eo; [|reflexivity]. unfold RustTokens.one_of in Eo. apply existsb_exists in Eo as (x & Hx & E). apply str_eqb_eq in E. subst x.
        repeat (destruct Hx as [<-|Hx]; [discriminate Hn|]). destruct Hx. }
      rewrite Ht, orb_true_r. cbn [andb]. clear -Hg. induction g as [|m l IH]; [reflexivity|]. cbn [forallb map] in *. apply andb_true_iff in Hg as [H1 H2]. rewrite (IH H2), andb_true_r.
      cbn [RustTokensProofs.ok_ty RustTokensProofs.path_ok negb orb forallb]. unfold RustTokens.segment_name. rewrite H1. reflexivity.
    + unfold self_sty. cbn [RustTokensProofs.depth]. assert (RustTokensProofs.maxs (map RustTokensProofs.depth (map (fun n => SExternal [] n []) g)) <= 1)%nat; [|lia].
      apply RustTokensProofs.maxs_le. intros x Hx. rewrite map_map in Hx. apply in_map_iff in Hx as (m & <- & _). cbn. lia.
Qed.
Lemma generics_read rest : (match map tt_of rest with RustTokens.TP RustTokens.PnLt :: _ => False | _ => True end) -> via RustTokens.p_generics (params_of g ++ rest) = Some rest.
Proof.
  intros Hs. destruct (via_reads RustTokens.p_generics (params_of g) (forallb RustTokens.is_ident g) True rest) as [_ H].
  - rewrite params_tt. apply RustTokensProofs.generics_reads_lt. exact Hs.
  - apply H; [exact Hg|exact I].
Qed.
End Name.

(** * impl blocks *)
Lemma strip_doc unprintable c X : strip_attrs (doc_of unprintable c ++ X) = strip_attrs X.
Proof. unfold doc_of. induction c as [|l c IH]; [reflexivity|]. cbn [flat_map app]. cbn [strip_attrs hash w]. exact IH. Qed.
Section Impl.
Variables (trait bound : list rt) (ts bs : list (list str)).
(** The trait is a path, the bound is a sum of paths. *)
Definition sum_of (bs : list (list str)) : list rt := separated plus (map abs bs).
Definition path_good (l : list str) : Prop := l <> [] /\ forallb (RustTokens.segment_name false) l = true.
Lemma bounds_read n rest : bs <> [] -> Forall path_good bs -> ends rest -> (forall s r, rest = P s :: r -> str_eqb s [43] = false) -> (length bs <= n)%nat ->
  p_bounds n (sum_of bs ++ rest) = Some rest.
Proof.
  intros Hne Hb He Hp. revert n. unfold sum_of. induction bs as [|b l IH]; [contradiction|]. intros [|n] Hl; [cbn [length] in Hl; lia|]. inversion Hb as [|? ? [H1 H2] Hb']; subst. cbn [length] in Hl.
  destruct l as [|b' l].
  - cbn [map separated p_bounds]. rewrite abs_read by assumption. cbn [bind]. destruct rest as [|[s|s|s|d x] rest]; try reflexivity. rewrite (Hp s rest eq_refl). reflexivity.
  - cbn [map separated p_bounds]. rewrite <- app_assoc. rewrite abs_read; [|assumption|assumption|exact I]. cbn [bind app]. change (str_eqb [43] [43]) with true.
    unfold plus. cbn [app]. change (str_eqb [43] [43]) with true. cbv iota. cbn [map] in IH. apply IH; [discriminate|exact Hb'|cbn [length] in *; lia].
Qed.
Lemma word_read n rest : RustTokens.is_ident n = true -> ends rest -> p_type_path (W n :: rest) = Some rest.
Proof.
  intros Hn Hs. change (p_type (W n :: [] ++ rest) = Some rest). exact (self_read false n [] Hn eq_refl rest Hs).
Qed.
Lemma predicates_read g : forall n X rest, bs <> [] -> Forall path_good bs -> forallb RustTokens.is_ident g = true -> (length g < n)%nat ->
  p_predicates n (terminated comma (map (fun n => W n :: colon :: sum_of bs) g) ++ G Brc X :: rest) = Some (G Brc X :: rest).
Proof.
  induction g as [|x g IH]; intros [|n] X rest Hne Hb Hg Hn; try (cbn [length] in Hn; lia); [reflexivity|].
  cbn [forallb] in Hg. apply andb_true_iff in Hg as [Hx Hg]. cbn [map]. rewrite terminated_cons, <- app_assoc. cbn [app p_predicates]. rewrite word_read; [|exact Hx|exact I].
  unfold colon at 1. cbn [bind]. change (str_eqb [58] [58]) with true. cbv iota.
  rewrite bounds_read; [|assumption|assumption|exact I|intros s r E; injection E as <- _; reflexivity|].
  - cbn [bind]. unfold comma at 1. change (str_eqb [44] [44]) with true. cbv iota. apply IH; try assumption. cbn [length] in Hn. lia.
  - rewrite app_length. assert (length bs <= S (length (sum_of bs)))%nat; [|lia]. unfold sum_of. clear -Hb. induction bs as [|b l IHl]; [cbn; lia|]. inversion Hb as [|? ? [H1 _] Hb']; subst.
    assert (1 <= length (abs b))%nat by (destruct b; [contradiction|]; cbn; lia). destruct l as [|b' l]; [cbn [map separated length]; lia|].
    change (separated plus (map abs (b :: b' :: l))) with (abs b ++ plus :: separated plus (map abs (b' :: l))). rewrite app_length. specialize (IHl Hb'). cbn [length] in *. lia.
Qed.
Lemma terminated_length (l : list (list rt)) : (length l <= length (terminated comma l))%nat.
Proof. induction l as [|x l IH]; [cbn; lia|]. rewrite terminated_cons, app_length. cbn [length]. lia. Qed.
Lemma where_read g X rest : bs <> [] -> Forall path_good bs -> forallb RustTokens.is_ident g = true ->
  p_where (where_of (sum_of bs) g ++ G Brc X :: rest) = Some (G Brc X :: rest).
Proof.
  intros Hne Hb Hg. unfold where_of. destruct g as [|x0 g0] eqn:E; [reflexivity|]. rewrite <- E in *. cbn [app p_where w]. change (str_eqb (tx "where") (tx "where")) with true. cbv iota.
  apply predicates_read; try assumption. rewrite app_length. pose proof (terminated_length (map (fun n => W n :: colon :: sum_of bs) g)) as H. rewrite map_length in H. lia.
Qed.
Lemma impl_read body name g attr fn t rest : RustTokens.is_ident name = true -> forallb RustTokens.is_ident g = true ->
  trait = abs t -> path_good t -> bound = sum_of bs -> bs <> [] -> Forall path_good bs ->
  p_impl body (params_of g ++ trait ++ w "for" :: W name :: params_of g ++ where_of bound g ++ [G Brc (attr ++ fn)] ++ rest)
  = if p_method body (attr ++ fn) then Some rest else None.
Proof.
  intros Hn Hg -> [Ht1 Ht2] -> Hbs Hb. unfold p_impl. rewrite generics_read; [|exact Hg|destruct t; [contradiction|exact I]]. cbn [bind].
  rewrite abs_read; [|exact Ht1|exact Ht2|exact I]. cbn [bind app w]. change (str_eqb (tx "for") (tx "for")) with true. cbv iota.
  rewrite (self_read false name g Hn Hg); [|destruct g; exact I]. cbn [bind]. rewrite where_read by assumption. reflexivity.
Qed.
End Impl.
Lemma impl_item items trait bound bs t name g attr fn rest : RustTokens.is_ident name = true -> forallb RustTokens.is_ident g = true ->
  trait = abs t -> path_good t -> bound = sum_of bs -> bs <> [] -> Forall path_good bs ->
  p_item items (impl_of trait name g bound attr fn ++ rest) = if p_method reads_body (attr ++ fn) then Some rest else None.
Proof.
  intros Hn Hg Ht1 Ht2 Hb1 Hb2 Hb3. unfold impl_of. rewrite <- !app_assoc. cbn [app]. rewrite <- !app_assoc. cbn [app]. rewrite <- !app_assoc.
  unfold p_item. change (strip_attrs (derived ++ ?X)) with (strip_attrs X). cbv zeta. unfold w at 1. cbn [strip_attrs].
  change (str_eqb (tx "impl") (tx "impl")) with true. cbv iota. eapply impl_read; eassumption.
Qed.
(** The methods. *)
Lemma method_read rb body : p_method rb (attr_struct ++ encode_sig ++ [G Brc body]) = rb body /\ p_method rb (attr_enum ++ encode_sig ++ [G Brc body]) = rb body
  /\ p_method rb (attr_struct ++ size_sig ++ [G Brc body]) = rb body /\ p_method rb (attr_enum ++ size_sig ++ [G Brc body]) = rb body
  /\ p_method rb (attr_dec_struct ++ decode_sig ++ [G Brc body]) = rb body /\ p_method rb (attr_dec_enum ++ decode_sig ++ [G Brc body]) = rb body.
Proof. repeat split; lazy; reflexivity. Qed.

(** * The other items *)
Section Items.
Variables (bc : bool) (unprintable : N -> bool).
Lemma doc_tt c : map tt_of (doc_of unprintable c) = RustTokens.emit_comment c.
Proof. unfold doc_of, RustTokens.emit_comment. induction c as [|l c IH]; [reflexivity|]. cbn [flat_map app map]. rewrite IH. reflexivity. Qed.
Lemma terminated_tt {A} (f : A -> list rt) (e : A -> list tt) l : (forall a, In a l -> map tt_of (f a) = e a) -> map tt_of (terminated comma (map f l)) = RustTokens.commas e l.
Proof.
  intros H. induction l as [|x l IH]; [reflexivity|]. cbn [map]. rewrite terminated_cons, map_app. cbn [map]. rewrite (H x (or_introl eq_refl)), IH by (intros a Ha; apply H; right; exact Ha).
  unfold RustTokens.commas. cbn [flat_map]. rewrite <- app_assoc. reflexivity.
Qed.
Lemma fields_tt st fs : fields_code_ok fs = true -> map tt_of (fields_of bc unprintable st fs) = RustTokens.emit_fields bc st fs.
Proof.
  unfold fields_code_ok. intros H. rewrite forallb_forall in H. unfold fields_of, RustTokens.emit_fields. destruct (ss_kind fs); [| |reflexivity]; cbn [map tt_of].
  - erewrite terminated_tt; [reflexivity|]. intros f Hf. specialize (H f Hf). apply andb_true_iff in H as [H _]. rewrite !map_app, doc_tt. cbn [map]. rewrite (tt_data bc _ H). destruct st; reflexivity.
  - erewrite terminated_tt; [reflexivity|]. intros f Hf. specialize (H f Hf). apply andb_true_iff in H as [H _]. rewrite map_app, (tt_data bc _ H). destruct st; reflexivity.
Qed.
Lemma variant_tt v : fields_code_ok (sv_fields v) = true -> map tt_of (variant_item bc unprintable v) = RustTokens.emit_variant bc v.
Proof. intros H. unfold variant_item, RustTokens.emit_variant. rewrite map_app, doc_tt. cbn [map]. rewrite fields_tt by exact H. reflexivity. Qed.

(** Reading an item: it fails, or the names are in order and it reads the tokens of the item. *)
Definition item_reads (items : list rt -> bool) (ts : list rt) (ok : bool) : Prop := forall rest,
  (p_item items (ts ++ rest) = None \/ (ok = true /\ p_item items (ts ++ rest) = Some rest)) /\ (ok = true -> p_item items (ts ++ rest) = Some rest).
Lemma item_of items ts A ok (full : Prop) (p : list rt -> list tt -> option (list tt)) :
  (forall rest, p_item items (ts ++ rest) = via (p (A ++ rest)) (A ++ rest)) -> (forall rest, reads (p (A ++ rest)) (map tt_of A) ok full (map tt_of rest)) -> full ->
  item_reads items ts ok.
Proof. intros H Hr Hf rest. rewrite H. destruct (via_reads _ _ _ _ _ (Hr rest)) as [H1 H2]. split; [exact H1|]. intros Ho. exact (H2 Ho Hf). Qed.
(** [RustTokens.p_item] behind the keyword. *)
Context {F : Type}.
Ltac behind := intros; cbn [RustTokens.emit_def]; rewrite <- ?app_assoc; unfold RustTokens.p_item; rewrite ?RustTokensProofs.attrs_comment; unfold RustTokens.attr_derive, RustTokens.attr_allow;
  cbn [app RustTokens.p_attrs RustTokens.p_vis RustTokens.tid]; reflexivity.
Lemma tt_struct ty its c n g fs R : RustTokens.p_item ty its (RustTokens.emit_def bc (SStruct (F := F) c n g fs) ++ R)
  = RustTokens.p_struct ty ((RustTokens.TId n :: RustTokens.emit_generics g ++ RustTokens.emit_fields bc true fs ++ (match ss_kind fs with SKNamed => [] | _ => [RustTokens.TP RustTokens.PnSemi] end)) ++ R).
Proof. cbn [app]. rewrite <- !app_assoc. cbn [RustTokens.emit_def]. rewrite <- !app_assoc. unfold RustTokens.p_item. rewrite RustTokensProofs.attrs_comment. unfold RustTokens.attr_derive, RustTokens.attr_allow. cbn [app]. rewrite <- !app_assoc. reflexivity. Qed.
Lemma tt_enum ty its c n g vs R : RustTokens.p_item ty its (RustTokens.emit_def bc (SEnum (F := F) c n g vs) ++ R)
  = RustTokens.p_enum ty ((RustTokens.TId n :: RustTokens.emit_generics g ++ [RustTokens.TG RustTokens.Brace (RustTokens.commas (RustTokens.emit_variant bc) vs)]) ++ R).
Proof. cbn [app]. rewrite <- !app_assoc. cbn [RustTokens.emit_def]. rewrite <- !app_assoc. unfold RustTokens.p_item. rewrite RustTokensProofs.attrs_comment. unfold RustTokens.attr_derive, RustTokens.attr_allow. cbn [app]. rewrite <- !app_assoc. reflexivity. Qed.
Lemma tt_alias ty its c n g t R : RustTokens.p_item ty its (RustTokens.emit_def bc (SAlias (F := F) c n g t) ++ R)
  = RustTokens.p_alias ty ((RustTokens.TId n :: RustTokens.emit_generics g ++ RustTokens.TP RustTokens.PnEq :: RustTokens.emit_ty bc t ++ [RustTokens.TP RustTokens.PnSemi]) ++ R).
Proof. cbn [app]. rewrite <- !app_assoc. cbn [RustTokens.emit_def]. rewrite <- !app_assoc. unfold RustTokens.p_item. rewrite RustTokensProofs.attrs_comment. unfold RustTokens.attr_allow. cbn [app]. rewrite <- !app_assoc. cbn [app]. rewrite <- ?app_assoc. reflexivity. Qed.
Lemma tt_const ty its c n t v R : RustTokens.p_item ty its (RustTokens.emit_def bc (SConst (F := F) c n t v) ++ R)
  = RustTokens.p_const ty ((RustTokens.TId n :: RustTokens.TP RustTokens.PnColon :: RustTokens.emit_const_ty bc t ++ RustTokens.TP RustTokens.PnEq :: RustTokens.emit_lit v ++ [RustTokens.TP RustTokens.PnSemi]) ++ R).
Proof. cbn [app]. rewrite <- !app_assoc. cbn [RustTokens.emit_def]. rewrite <- !app_assoc. unfold RustTokens.p_item. rewrite RustTokensProofs.attrs_comment. unfold RustTokens.attr_allow. cbn [app]. rewrite <- !app_assoc. cbn [app]. rewrite <- ?app_assoc. reflexivity. Qed.
Lemma tt_import ty its segs e R : RustTokens.p_item ty its (RustTokens.emit_def bc (SImport (F := F) segs e) ++ R)
  = RustTokens.p_import ((RustTokens.tid "super" :: RustTokens.path_tail segs ++ (match e with Some n => [RustTokens.TP RustTokens.PnPathSep; RustTokens.TId n] | None => [] end) ++ [RustTokens.TP RustTokens.PnSemi]) ++ R).
Proof. cbn [app]. rewrite <- !app_assoc. cbn [RustTokens.emit_def]. cbn [app]. rewrite <- !app_assoc. reflexivity. Qed.
Lemma fuel_types A rest : exists n, types (A ++ rest) = RustTokens.p_ty (RustTokens.tsizes (map tt_of A) + n) /\ (3 <= n)%nat.
Proof. destruct (types_more A rest) as (n & ->). exists (3 + n)%nat. split; [|lia]. f_equal. lia. Qed.

Notation okf := (RustTokensProofs.ok_def_at false).
(** [RustTokensProofs.def_reads] without modules. *)
Lemma reads_flat (d : sdef F) g R : generates d = true -> RustTokensProofs.nesting d = 0%nat ->
  reads (RustTokens.p_item (RustTokens.p_ty g) (RustTokens.p_items g 0)) (RustTokens.emit_def bc d) (okf d) (RustTokensProofs.full g d) R.
Proof. intros Hg Hn. destruct (RustTokensProofs.def_reads bc g d Hg 0 R) as [H1 H2]. split; [exact H1|]. intros Ho Hf. apply H2; [exact Ho|]. split; [exact Hf|lia]. Qed.
Lemma sizes_app a b : RustTokens.tsizes (a ++ b) = (RustTokens.tsizes a + RustTokens.tsizes b)%nat.
Proof. apply RustTokensProofs.tsizes_app. Qed.
Lemma sizes_cons x l : RustTokens.tsizes (x :: l) = (RustTokens.tsize x + RustTokens.tsizes l)%nat.
Proof. apply RustTokensProofs.tsizes_cons. Qed.
Lemma struct_reads items c n g fs : fields_code_ok fs = true -> item_reads items (struct_item bc unprintable c n g fs) (okf (SStruct (F := F) c n g fs)).
Proof.
  intros Hg. set (A := W n :: params_of g ++ fields_of bc unprintable true fs ++ match ss_kind fs with SKNamed => [] | _ => [semi] end).
  assert (EA : map tt_of A = RustTokens.TId n :: RustTokens.emit_generics g ++ RustTokens.emit_fields bc true fs ++ (match ss_kind fs with SKNamed => [] | _ => [RustTokens.TP RustTokens.PnSemi] end)).
  { unfold A. cbn [map]. rewrite !map_app, params_tt, fields_tt by exact Hg. destruct (ss_kind fs); reflexivity. }
  apply (item_of items _ A _ True (fun r => RustTokens.p_struct (types r))); [| |exact I].
  - intros rest. unfold struct_item. rewrite <- app_assoc. unfold p_item. rewrite strip_doc. unfold A, attr_derive, attr_item. cbn [app]. rewrite <- ?app_assoc. reflexivity.
  - intros rest. destruct (fuel_types A rest) as (m & -> & Hm). pose proof (reads_flat (SStruct c n g fs) (RustTokens.tsizes (map tt_of A) + m) (map tt_of rest) Hg eq_refl) as H.
    unfold RustTokensProofs.reads in H. rewrite tt_struct, <- EA in H. revert H. apply RustTokensProofs.reads_weaken. intros _. cbn [RustTokensProofs.full].
    eapply RustTokensProofs.fields_mono; [|exact (RustTokensProofs.fields_bounded bc true fs Hg)]. rewrite EA, sizes_cons, !sizes_app. lia.
Qed.
Lemma enum_reads items c n g vs : forallb (fun v => fields_code_ok (sv_fields v)) vs = true -> item_reads items (enum_item bc unprintable c n g vs) (okf (SEnum (F := F) c n g vs)).
Proof.
  intros Hg. set (A := W n :: params_of g ++ [G Brc (terminated comma (map (variant_item bc unprintable) vs))]).
  assert (EA : map tt_of A = RustTokens.TId n :: RustTokens.emit_generics g ++ [RustTokens.TG RustTokens.Brace (RustTokens.commas (RustTokens.emit_variant bc) vs)]).
  { unfold A. cbn [map]. rewrite map_app, params_tt. cbn [map tt_of]. rewrite (terminated_tt _ (RustTokens.emit_variant bc)); [reflexivity|]. rewrite forallb_forall in Hg. intros v Hv. apply variant_tt, Hg, Hv. }
  apply (item_of items _ A _ True (fun r => RustTokens.p_enum (types r))); [| |exact I].
  - intros rest. unfold enum_item. rewrite <- app_assoc. unfold p_item. rewrite strip_doc. unfold A, attr_derive, attr_item. cbn [app]. rewrite <- ?app_assoc. reflexivity.
  - intros rest. destruct (fuel_types A rest) as (m & -> & Hm). pose proof (reads_flat (SEnum c n g vs) (RustTokens.tsizes (map tt_of A) + m) (map tt_of rest) Hg eq_refl) as H.
    unfold RustTokensProofs.reads in H. rewrite tt_enum, <- EA in H. revert H. apply RustTokensProofs.reads_weaken. intros _. cbn [RustTokensProofs.full].
    rewrite forallb_forall in Hg. intros v Hv. eapply RustTokensProofs.fields_mono; [|exact (RustTokensProofs.fields_bounded bc false (sv_fields v) (Hg v Hv))].
    rewrite EA, sizes_cons, !sizes_app. rewrite RustTokensProofs.tsizes_group. pose proof (RustTokensProofs.tsizes_commas (RustTokens.emit_variant bc) vs v Hv) as H. unfold RustTokens.emit_variant at 1 in H.
    rewrite sizes_app, sizes_cons in H. lia.
Qed.
Lemma alias_reads items c n g t : def_type_ok t = true -> item_reads items (alias_item bc unprintable c n g t) (okf (SAlias (F := F) c n g t)).
Proof.
  intros Hg. set (A := W n :: params_of g ++ equals :: data_ty bc t ++ [semi]).
  assert (EA : map tt_of A = RustTokens.TId n :: RustTokens.emit_generics g ++ RustTokens.TP RustTokens.PnEq :: RustTokens.emit_ty bc t ++ [RustTokens.TP RustTokens.PnSemi]).
  { unfold A. cbn [map]. rewrite map_app, params_tt. cbn [map]. rewrite map_app, (tt_data bc t Hg). reflexivity. }
  apply (item_of items _ A _ True (fun r => RustTokens.p_alias (types r))); [| |exact I].
  - intros rest. unfold alias_item. rewrite <- app_assoc. unfold p_item. rewrite strip_doc. unfold A, attr_item, attr_const. cbn [app]. rewrite <- ?app_assoc. cbn [app]. rewrite <- ?app_assoc. reflexivity.
  - intros rest. destruct (fuel_types A rest) as (m & -> & Hm). pose proof (reads_flat (SAlias c n g t) (RustTokens.tsizes (map tt_of A) + m) (map tt_of rest) Hg eq_refl) as H.
    unfold RustTokensProofs.reads in H. rewrite tt_alias, <- EA in H. revert H. apply RustTokensProofs.reads_weaken. intros _. cbn [RustTokensProofs.full].
    pose proof (proj1 (RustTokensProofs.ty_bounded2 bc t) Hg). rewrite EA, sizes_cons, sizes_app, sizes_cons, sizes_app. lia.
Qed.
(** The text of a float: a number, perhaps with a sign. *)
Definition number_text (s : str) : Prop := exists m, read s = Some [Q m] \/ read s = Some [minus; Q m].
Lemma literal_tt (float_text : F -> str) (v : lit F) : (match v with LFloat f => number_text (float_text f) | _ => True end) ->
  exists v', map tt_of (literal_of float_text unprintable v) = RustTokens.emit_lit (F := F) v'.
Proof.
  destruct v as [b|z|f|s|b]; cbn [literal_of]; intros H.
  - exists (LBool b). destruct b; reflexivity.
  - exists (LInt z). cbn [RustTokens.emit_lit]. destruct (z <? 0)%Z; reflexivity.
  - destruct H as (m & [-> | ->]); [exists (LInt 1); reflexivity|exists (LInt (-1)); reflexivity].
  - exists (LString s). reflexivity.
  - exists (LBytes b). reflexivity.
Qed.
Lemma const_tt t : const_type_ok t = true -> map tt_of (const_ty bc t) = RustTokens.emit_const_ty bc t.
Proof. destruct t as [p| | | | | | | |]; try discriminate. destruct p; try discriminate; reflexivity. Qed.
Lemma const_reads (float_text : F -> str) items c n t v : const_type_ok t = true -> (match v with LFloat f => number_text (float_text f) | _ => True end) ->
  item_reads items (const_item bc float_text unprintable c n t v) (okf (SConst c n t v)).
Proof.
  intros Hg Hv. destruct (literal_tt float_text v Hv) as (v' & Ev). set (A := W n :: colon :: const_ty bc t ++ equals :: literal_of float_text unprintable v ++ [semi]).
  assert (EA : map tt_of A = RustTokens.TId n :: RustTokens.TP RustTokens.PnColon :: RustTokens.emit_const_ty bc t ++ RustTokens.TP RustTokens.PnEq :: RustTokens.emit_lit v' ++ [RustTokens.TP RustTokens.PnSemi]).
  { unfold A. cbn [map]. rewrite map_app, (const_tt t Hg). cbn [map]. rewrite map_app, Ev. reflexivity. }
  apply (item_of items _ A _ True (fun r => RustTokens.p_const (types r))); [| |exact I].
  - intros rest. unfold const_item. rewrite <- app_assoc. unfold p_item. rewrite strip_doc. unfold A, attr_item, attr_const. cbn [app]. rewrite <- ?app_assoc. cbn [app]. rewrite <- ?app_assoc. reflexivity.
  - intros rest. destruct (fuel_types A rest) as (m & -> & Hm). pose proof (reads_flat (SConst c n t v') (RustTokens.tsizes (map tt_of A) + m) (map tt_of rest) Hg eq_refl) as H.
    unfold RustTokensProofs.reads in H. rewrite tt_const, <- EA in H. revert H. apply RustTokensProofs.reads_weaken. intros _. cbn [RustTokensProofs.full]. lia.
Qed.
Lemma import_reads items segs e : segs <> [] -> item_reads items (import_item segs e) (okf (SImport (F := F) segs e)).
Proof.
  intros Hs. set (A := w "super" :: sep2 :: separated sep2 (map (fun s => [W s]) segs) ++ match e with Some n => [sep2; W n] | None => [] end ++ [semi]).
  assert (EA : map tt_of A = RustTokens.tid "super" :: RustTokens.path_tail segs ++ (match e with Some n => [RustTokens.TP RustTokens.PnPathSep; RustTokens.TId n] | None => [] end) ++ [RustTokens.TP RustTokens.PnSemi]).
  { unfold A. cbn [map]. rewrite !map_app. f_equal.
    assert (H : forall l, l <> [] -> RustTokens.TP RustTokens.PnPathSep :: map tt_of (separated sep2 (map (fun s => [W s]) l)) = RustTokens.path_tail l).
    { induction l as [|x l IH]; [contradiction|]. intros _. destruct l as [|y l]; [reflexivity|]. specialize (IH ltac:(discriminate)).
      change (separated sep2 (map (fun s => [W s]) (x :: y :: l))) with (W x :: sep2 :: separated sep2 (map (fun s => [W s]) (y :: l))). cbn [map]. change (RustTokens.path_tail (x :: y :: l)) with (RustTokens.TP RustTokens.PnPathSep :: RustTokens.TId x :: RustTokens.path_tail (y :: l)). rewrite <- IH. reflexivity. }
    rewrite <- (H segs Hs). destruct e; reflexivity. }
  apply (item_of items _ A _ True (fun _ => RustTokens.p_import)); [| |exact I].
  - intros rest. unfold import_item, A, attr_use. cbn [app]. rewrite <- ?app_assoc. reflexivity.
  - intros rest. pose proof (reads_flat (SImport segs e) 0 (map tt_of rest) eq_refl eq_refl) as H. unfold RustTokensProofs.reads in H. rewrite tt_import, <- EA in H. revert H. apply RustTokensProofs.reads_weaken. intros _. exact I.
Qed.
End Items.

(** * Definitions *)
(** What the compiler's output looks like besides: positional fields have names that can be written, fields without content have none. *)
Definition tidy_fields (fs : sfields) : bool :=
  match ss_kind fs with
  | SKNamed => true
  | SKUnnamed => forallb (fun f => RustTokens.is_ident (sf_name f)) (ss_fields fs)
  | SKUnit => match ss_fields fs with [] => true | _ => false end
  end.
Fixpoint tidy {F} (d : sdef F) : bool :=
  match d with
  | SModule _ _ ds => forallb tidy ds
  | SStruct _ _ _ fs => tidy_fields fs
  | SEnum _ _ _ vs => forallb (fun v => tidy_fields (sv_fields v)) vs
  | SImport segs _ => match segs with [] => false | _ => true end
  | _ => true
  end.
Lemma fields_ready fs : fields_code_ok fs = true -> tidy_fields fs = true -> RustTokensProofs.ok_fields true fs = true -> fields_ok fs.
Proof.
  unfold fields_code_ok, tidy_fields, RustTokensProofs.ok_fields, fields_ok. intros Hc Ht Ho. rewrite forallb_forall in Hc. apply Forall_forall. intros f Hf. specialize (Hc f Hf). apply andb_true_iff in Hc as [H1 H2].
  assert (RustTokens.is_ident (sf_name f) = true /\ RustTokensProofs.ok_ty (sf_ty f) = true) as [H3 H4].
  { destruct (ss_kind fs).
    - rewrite forallb_forall in Ho. specialize (Ho f Hf). apply andb_true_iff in Ho. exact Ho.
    - rewrite forallb_forall in Ho, Ht. split; [apply Ht; exact Hf|]. specialize (Ho f Hf). unfold RustTokensProofs.ok_unnamed in Ho. cbn [negb andb] in Ho. rewrite orb_false_r in Ho. exact Ho.
    - destruct (ss_fields fs); [destruct Hf|discriminate]. }
  repeat split; assumption.
Qed.
Lemma variants_ready vs : forallb (fun v => fields_code_ok (sv_fields v)) vs = true -> forallb (fun v => tidy_fields (sv_fields v)) vs = true ->
  forallb (RustTokensProofs.ok_variant_at true) vs = true -> Forall variant_ok vs.
Proof.
  intros Hc Ht Ho. rewrite forallb_forall in Hc, Ht, Ho. apply Forall_forall. intros v Hv. specialize (Ho v Hv). unfold RustTokensProofs.ok_variant_at in Ho. apply andb_true_iff in Ho as [H1 H2].
  split; [exact H1|]. apply fields_ready; auto.
Qed.
(** The meaning of the bodies does not matter here: every reference is taken to be known. *)
Definition known : list str -> str -> option nat := fun _ _ => Some 0%nat.
Lemma lower_some t : exists u, lower_type known [] t = Some u.
Proof.
  assert (L : forall ts, (forall t, In t ts -> exists u, lower_type known [] t = Some u) -> exists us, all_opt (lower_type known []) ts = Some us).
  { intros ts H. induction ts as [|t0 ts0 IHts]; [exists []; reflexivity|]. destruct (H t0 (or_introl eq_refl)) as (u & E). destruct IHts as (us & Es); [intros x Hx; apply H; right; exact Hx|].
    exists (u :: us). cbn [all_opt]. rewrite E, Es. reflexivity. }
  induction t as [p|t0 (u & E)|k v (a & Ea) (b & Eb)|t0 (u & E)|t0 (u & E)|t0 (u & E)|ts IH|t0 n (u & E)|path name gs IH] using LowerProofs.sty_ind2; cbn [lower_type]; try (rewrite E; eexists; reflexivity).
  - eexists; reflexivity.
  - rewrite Ea, Eb. eexists; reflexivity.
  - destruct (L ts IH) as (us & ->). eexists; reflexivity.
  - destruct (L gs IH) as (us & ->). unfold lower_ref, known. destruct path; eexists; reflexivity.
Qed.
Lemma lower_fields_some fs : exists fs', lower_fields known [] fs = Some fs'.
Proof.
  unfold lower_fields. assert (H : exists l, all_opt (lower_field known []) (ss_fields fs) = Some l); [|destruct H as (l & ->); eexists; reflexivity].
  induction (ss_fields fs) as [|f l (m & Em)]; [eexists; reflexivity|]. cbn [all_opt]. unfold lower_field at 1. destruct (lower_some (sf_ty f)) as (u & ->). cbn [option_map]. rewrite Em. eexists; reflexivity.
Qed.
Lemma lower_variants_some vs : exists vs', all_opt (lower_variant known []) vs = Some vs'.
Proof. induction vs as [|v vs (m & Em)]; [eexists; reflexivity|]. cbn [all_opt]. unfold lower_variant at 1. destruct (lower_fields_some (sv_fields v)) as (u & ->). cbn [option_map]. rewrite Em. eexists; reflexivity. Qed.
Lemma struct_bodies bc fs : fields_ok fs -> reads_body (let_self fs ++ encode_fields bc fs) = true /\ reads_body (decode_body bc [w "Self"] fs) = true /\ reads_body (let_self fs ++ size_fields bc fs) = true.
Proof.
  intros H. destruct (lower_fields_some fs) as (fs' & E). unfold reads_body.
  destruct (encode_struct_reads bc known [] fs fs' H E) as (b1 & -> & _). destruct (decode_struct_reads bc known [] fs fs' H E) as (b2 & -> & _). destruct (size_struct_reads bc known [] fs fs' H E) as (b3 & -> & _). auto.
Qed.
Lemma enum_bodies bc vs : Forall variant_ok vs -> reads_body (match_self (map (encode_variant bc) vs)) = true
  /\ reads_body (variant_scrut ++ [G Brc (terminated comma (map (decode_variant bc) vs ++ [variant_arm]))]) = true /\ reads_body (match_self (map (size_variant bc) vs)) = true.
Proof.
  intros H. destruct (lower_variants_some vs) as (vs' & E). unfold reads_body.
  destruct (encode_enum_reads bc known [] vs vs' H E) as (b1 & -> & _). destruct (decode_enum_reads bc known [] vs vs' KUnit H E) as (b2 & -> & _). destruct (size_enum_reads bc known [] vs vs' H E) as (b3 & -> & _). auto.
Qed.

Section Files.
Context {F : Type}.
Variables (bc : bool) (float_text : F -> str) (unprintable : N -> bool).
Notation def_tokens := (def_tokens bc float_text unprintable).
Lemma encode_impl items n g attr fn rest : RustTokens.is_ident n = true -> forallb RustTokens.is_ident g = true ->
  p_item items (impl_of encode_trait n g encode_bound attr fn ++ rest) = if p_method reads_body (attr ++ fn) then Some rest else None.
Proof.
  intros Hn Hg. apply impl_item with (t := [tx "mabo"; tx "Encode"]) (bs := [[tx "mabo"; tx "buf"; tx "Encode"]; [tx "mabo"; tx "buf"; tx "Size"]]); try assumption; try reflexivity; try discriminate;
    repeat first [split; [discriminate|reflexivity]|constructor].
Qed.
Lemma decode_impl items n g attr fn rest : RustTokens.is_ident n = true -> forallb RustTokens.is_ident g = true ->
  p_item items (impl_of decode_trait n g decode_bound attr fn ++ rest) = if p_method reads_body (attr ++ fn) then Some rest else None.
Proof.
  intros Hn Hg. apply impl_item with (t := [tx "mabo"; tx "Decode"]) (bs := [[tx "std"; tx "fmt"; tx "Debug"]; [tx "mabo"; tx "buf"; tx "Decode"]]); try assumption; try reflexivity; try discriminate;
    repeat first [split; [discriminate|reflexivity]|constructor].
Qed.
Lemma size_impl items n g attr fn rest : RustTokens.is_ident n = true -> forallb RustTokens.is_ident g = true ->
  p_item items (impl_of size_bound n g size_bound attr fn ++ rest) = if p_method reads_body (attr ++ fn) then Some rest else None.
Proof.
  intros Hn Hg. apply impl_item with (t := [tx "mabo"; tx "buf"; tx "Size"]) (bs := [[tx "mabo"; tx "buf"; tx "Size"]]); try assumption; try reflexivity; try discriminate;
    repeat first [split; [discriminate|reflexivity]|constructor].
Qed.

(** Items one after the other. *)
Lemma repeated_mono p : forall k n ts, p_repeated n p ts = true -> p_repeated (k + n) p ts = true.
Proof.
  induction k as [|k IH]; [trivial|]. intros m ts H. specialize (IH m ts H). clear H. cbn [Nat.add]. revert ts IH. induction (k + m)%nat as [|j IHj]; [discriminate|]. intros ts H. cbn [p_repeated] in H. cbn [p_repeated].
  destruct ts as [|t ts]; [reflexivity|]. destruct (p (t :: ts)) as [r|]; [|discriminate]. exact (IHj r H).
Qed.
Lemma repeated_step p n a b : a <> [] -> p (a ++ b) = Some b -> p_repeated n p b = true -> p_repeated (length a + n) p (a ++ b) = true.
Proof.
  intros Ha Hp Hn. destruct a as [|x a]; [contradiction|]. cbn [length Nat.add app p_repeated] in *. rewrite Hp. apply repeated_mono. exact Hn.
Qed.
Lemma repeated_some p n a b : a <> [] -> p_repeated n p (a ++ b) = true -> exists m r, n = S m /\ p (a ++ b) = Some r /\ p_repeated m p r = true.
Proof.
  intros Ha H. destruct n as [|m]; [discriminate|]. cbn [p_repeated] in H. destruct a as [|x a]; [contradiction|]. cbn [app] in *. destruct (p (x :: a ++ b)) as [r|] eqn:E; [|discriminate]. exists m, r. auto.
Qed.
Lemma impl_cons trait n g bound attr fn : impl_of trait n g bound attr fn <> [].
Proof. discriminate. Qed.
Lemma item_cons c X : X <> [] -> doc_of unprintable c ++ X <> [].
Proof. destruct (doc_of unprintable c); [trivial|discriminate]. Qed.
(** Three blocks behind an item. *)
Lemma after p n i (x y z : list rt) ok e1 e2 e3 rest : i <> [] -> x <> [] -> y <> [] -> z <> [] ->
  (forall rest, (p (i ++ rest) = None \/ (ok = true /\ p (i ++ rest) = Some rest))) ->
  (ok = true -> forall rest, p (x ++ rest) = if e1 : bool then Some rest else None) -> (ok = true -> forall rest, p (y ++ rest) = if e2 : bool then Some rest else None) ->
  (ok = true -> forall rest, p (z ++ rest) = if e3 : bool then Some rest else None) ->
  p_repeated n p ((i ++ x ++ y ++ z) ++ rest) = true -> ok = true /\ exists m, p_repeated m p rest = true.
Proof.
  intros Hi Hx Hy Hz H H1 H2 H3 Hr. rewrite <- !app_assoc in Hr. apply repeated_some in Hr as (m & r & _ & Hp & Hr); [|exact Hi]. destruct (H (x ++ y ++ z ++ rest)) as [E|[Ho E]]; rewrite E in Hp; [discriminate|]. injection Hp as <-.
  split; [exact Ho|]. apply repeated_some in Hr as (m1 & r & _ & Hp & Hr); [|exact Hx]. rewrite (H1 Ho) in Hp. destruct e1; [|discriminate]. injection Hp as <-.
  apply repeated_some in Hr as (m2 & r & _ & Hp & Hr); [|exact Hy]. rewrite (H2 Ho) in Hp. destruct e2; [|discriminate]. injection Hp as <-.
  apply repeated_some in Hr as (m3 & r & _ & Hp & Hr); [|exact Hz]. rewrite (H3 Ho) in Hp. destruct e3; [|discriminate]. injection Hp as <-. exists m3. exact Hr.
Qed.
Lemma four p n i (x y z : list rt) rest : i <> [] -> x <> [] -> y <> [] -> z <> [] ->
  (forall rest, p (i ++ rest) = Some rest) -> (forall rest, p (x ++ rest) = Some rest) -> (forall rest, p (y ++ rest) = Some rest) -> (forall rest, p (z ++ rest) = Some rest) ->
  p_repeated n p rest = true -> p_repeated (length (i ++ x ++ y ++ z) + n) p ((i ++ x ++ y ++ z) ++ rest) = true.
Proof.
  intros Hi Hx Hy Hz H H1 H2 H3 Hr. rewrite !app_length, <- !app_assoc, <- !Nat.add_assoc. repeat apply repeated_step; auto.
Qed.

(** The floats of constants are written as numbers. *)
Fixpoint floats (d : sdef F) : Prop :=
  match d with
  | SModule _ _ ds => fold_right (fun d P => floats d /\ P) True ds
  | SConst _ _ _ (LFloat f) => number_text (float_text f)
  | _ => True
  end.
Lemma floats_all ds : fold_right (fun d P => floats d /\ P) True ds <-> forall d, In d ds -> floats d.
Proof.
  induction ds as [|d ds IH]; cbn [fold_right In]; [split; [intros _ d []|trivial]|]. rewrite IH. split.
  - intros [H1 H2] x [<-|Hx]; auto.
  - intros H. split; [apply H; left; reflexivity|intros x Hx; apply H; right; exact Hx].
Qed.
Notation okf := (RustTokensProofs.ok_def_at false).
Notation okt := (RustTokensProofs.ok_def_at true).
Lemma weaker (d : sdef F) : okt d = true -> okf d = true.
Proof.
  induction d as [c n ds IH|d Hno] using PropGoOut.sdef_ind2.
  - cbn [RustTokensProofs.ok_def_at]. intros H. apply andb_true_iff in H as [H1 H2]. rewrite H1. cbn [andb]. rewrite forallb_forall in *. auto.
  - destruct d as [c n ds|c n g fs|c n g vs|c n g t|c n t v|segs e]; try trivial; [exfalso; eapply Hno; reflexivity|].
    cbn [RustTokensProofs.ok_def_at]. intros H. apply andb_true_iff in H as [H1 H]. apply andb_true_iff in H as [H2 H]. rewrite H1, H2. cbn [andb]. rewrite forallb_forall in *. intros v Hv. specialize (H v Hv).
    unfold RustTokensProofs.ok_variant_at, RustTokensProofs.ok_fields in *. apply andb_true_iff in H as [H3 H]. rewrite H3. cbn [andb]. destruct (ss_kind (sv_fields v)); try exact H. rewrite forallb_forall in *. intros f Hf. specialize (H f Hf).
    unfold RustTokensProofs.ok_unnamed in *. cbn [negb andb] in *. rewrite orb_false_r in H. rewrite H. reflexivity.
Qed.
Lemma prelude_item its X : p_item its (prelude ++ X) = Some X.
Proof.
  change (via RustTokens.p_import (skipn 3 prelude ++ X) = Some X). apply via_app. reflexivity.
Qed.
Lemma list_sound p ds : (forall d, In d ds -> forall n rest, p_repeated n p (def_tokens d ++ rest) = true -> okf d = true /\ exists m, p_repeated m p rest = true) ->
  forall n, p_repeated n p (flat_map def_tokens ds) = true -> forallb okf ds = true.
Proof.
  induction ds as [|d ds IH]; intros H n Hn; [reflexivity|]. cbn [flat_map] in Hn. apply (H d (or_introl eq_refl)) in Hn as [Ho (m & Hm)]. cbn [forallb]. rewrite Ho. cbn [andb].
  apply (IH (fun x Hx => H x (or_intror Hx)) m Hm).
Qed.
Lemma list_complete p ds : (forall d, In d ds -> forall n rest, p_repeated n p rest = true -> p_repeated (length (def_tokens d) + n) p (def_tokens d ++ rest) = true) ->
  p_repeated (S (length (flat_map def_tokens ds))) p (flat_map def_tokens ds) = true.
Proof.
  induction ds as [|d ds IH]; intros H; [reflexivity|]. cbn [flat_map]. rewrite app_length, plus_n_Sm. apply H; [left; reflexivity|]. apply IH. intros x Hx. apply H. right. exact Hx.
Qed.
Lemma module_item f c n L rest : p_item (p_items f) ((doc_of unprintable c ++ w "pub" :: w "mod" :: W n :: [G Brc L]) ++ rest)
  = if RustTokens.mod_name n && p_items f L then Some rest else None.
Proof. rewrite <- app_assoc. unfold p_item. rewrite strip_doc. reflexivity. Qed.
Lemma def_cons d : def_tokens d <> [].
Proof. destruct d as [c n ds|c n g fs|c n g vs|c n g t|c n t v|segs e]; cbn [RustFile.def_tokens]; try discriminate; unfold doc_of; destruct c; discriminate. Qed.
Lemma app_cons (a b : list rt) : b <> [] -> a ++ b <> [].
Proof. destruct a; [trivial|discriminate]. Qed.
Lemma inside f ds : p_items (S f) (prelude ++ flat_map def_tokens ds) = p_repeated (length (prelude ++ flat_map def_tokens ds)) (p_item (p_items f)) (flat_map def_tokens ds).
Proof. change (p_items (S f) (prelude ++ flat_map def_tokens ds)) with (match p_item (p_items f) (prelude ++ flat_map def_tokens ds) with Some r => p_repeated (length (prelude ++ flat_map def_tokens ds)) (p_item (p_items f)) r | None => false end). rewrite prelude_item. reflexivity. Qed.
Theorem def_sound d : generates d = true -> tidy d = true -> floats d -> forall f n rest, p_repeated n (p_item (p_items f)) (def_tokens d ++ rest) = true ->
  okf d = true /\ exists m, p_repeated m (p_item (p_items f)) rest = true.
Proof.
  induction d as [c n ds IH|d Hno] using PropGoOut.sdef_ind2; intros Hg Ht Hf f k rest H.
  - cbn [generates tidy floats RustFile.def_tokens] in *. apply repeated_some in H as (m & r & _ & Hp & Hr); [|apply app_cons; discriminate]. rewrite module_item in Hp.
    destruct (RustTokens.mod_name n) eqn:En; [|discriminate]. destruct (p_items f _) eqn:Ei; [|discriminate]. injection Hp as <-. split; [|exists m; exact Hr].
    cbn [RustTokensProofs.ok_def_at]. rewrite En. cbn [andb]. destruct f as [|f]; [discriminate|]. rewrite inside in Ei. revert Ei. apply list_sound. rewrite forallb_forall in Hg, Ht. rewrite floats_all in Hf.
    intros d Hd n0 rest0. apply IH; auto.
  - destruct d as [c n ds|c n g fs|c n g vs|c n g t|c n t v|segs e]; [exfalso; eapply Hno; reflexivity|..]; cbn [generates tidy floats RustFile.def_tokens] in *.
    + unfold encode_struct, decode_struct, size_struct in H. set (p := p_item (p_items f)) in *.
      assert (Hid : okf (SStruct (F := F) c n g fs) = true -> RustTokens.is_ident n = true /\ forallb RustTokens.is_ident g = true).
      { cbn [RustTokensProofs.ok_def_at]. intros Ho. apply andb_true_iff in Ho as [H1 Ho]. apply andb_true_iff in Ho as [H2 _]. auto. }
      refine (after p k _ _ _ _ _ _ _ _ rest _ _ _ _ _ _ _ _ H); [apply item_cons; discriminate|discriminate|discriminate|discriminate|..].
      * intros r. exact (proj1 (struct_reads (F := F) bc unprintable (p_items f) c n g fs Hg r)).
      * intros Ho r. destruct (Hid Ho). apply encode_impl; assumption.
      * intros Ho r. destruct (Hid Ho). apply decode_impl; assumption.
      * intros Ho r. destruct (Hid Ho). apply size_impl; assumption.
    + unfold encode_enum, decode_enum, size_enum in H. set (p := p_item (p_items f)) in *.
      assert (Hid : okf (SEnum (F := F) c n g vs) = true -> RustTokens.is_ident n = true /\ forallb RustTokens.is_ident g = true).
      { cbn [RustTokensProofs.ok_def_at]. intros Ho. apply andb_true_iff in Ho as [H1 Ho]. apply andb_true_iff in Ho as [H2 _]. auto. }
      refine (after p k _ _ _ _ _ _ _ _ rest _ _ _ _ _ _ _ _ H); [apply item_cons; discriminate|discriminate|discriminate|discriminate|..].
      * intros r. exact (proj1 (enum_reads (F := F) bc unprintable (p_items f) c n g vs Hg r)).
      * intros Ho r. destruct (Hid Ho). apply encode_impl; assumption.
      * intros Ho r. destruct (Hid Ho). apply decode_impl; assumption.
      * intros Ho r. destruct (Hid Ho). apply size_impl; assumption.
    + apply repeated_some in H as (m & r & _ & Hp & Hr); [|apply item_cons; discriminate]. destruct (proj1 (alias_reads (F := F) bc unprintable (p_items f) c n g t Hg rest)) as [E|[Ho E]]; rewrite E in Hp; [discriminate|].
      injection Hp as <-. split; [exact Ho|exists m; exact Hr].
    + apply repeated_some in H as (m & r & _ & Hp & Hr); [|apply item_cons; discriminate]. destruct (proj1 (const_reads bc unprintable float_text (p_items f) c n t v Hg Hf rest)) as [E|[Ho E]]; rewrite E in Hp; [discriminate|].
      injection Hp as <-. split; [exact Ho|exists m; exact Hr].
    + apply repeated_some in H as (m & r & _ & Hp & Hr); [|discriminate]. assert (Hs : segs <> []) by (intros ->; discriminate). destruct (proj1 (import_reads bc (F := F) (p_items f) segs e Hs rest)) as [E|[Ho E]]; rewrite E in Hp; [discriminate|].
      injection Hp as <-. split; [exact Ho|exists m; exact Hr].
Qed.
Theorem def_complete d : generates d = true -> tidy d = true -> floats d -> okt d = true -> forall f, (RustTokensProofs.nesting d <= f)%nat -> forall n rest, p_repeated n (p_item (p_items f)) rest = true ->
  p_repeated (length (def_tokens d) + n) (p_item (p_items f)) (def_tokens d ++ rest) = true.
Proof.
  induction d as [c n ds IH|d Hno] using PropGoOut.sdef_ind2; intros Hg Ht Hf Ho f Hn k rest H.
  - apply repeated_step; [apply def_cons| |exact H]. cbn [generates tidy floats RustFile.def_tokens RustTokensProofs.ok_def_at RustTokensProofs.nesting] in *. rewrite module_item. apply andb_true_iff in Ho as [H1 Ho].
    destruct f as [|f]; [lia|]. rewrite H1, inside, app_length. change (length prelude) with 10%nat.
    replace (p_repeated _ _ _) with true; [reflexivity|]. symmetry. rewrite forallb_forall in Hg, Ht, Ho. rewrite floats_all in Hf.
    assert (E : p_repeated (S (length (flat_map def_tokens ds))) (p_item (p_items f)) (flat_map def_tokens ds) = true).
    { apply list_complete. intros d Hd. apply IH; auto. pose proof (RustTokensProofs.maxs_in (map RustTokensProofs.nesting ds) (RustTokensProofs.nesting d) (in_map RustTokensProofs.nesting ds d Hd)). lia. }
    exact (repeated_mono _ 9 _ _ E).
  - pose proof (weaker d Ho) as Hw. destruct d as [c n ds|c n g fs|c n g vs|c n g t|c n t v|segs e]; [exfalso; eapply Hno; reflexivity|..].
    + cbn [generates tidy floats RustFile.def_tokens] in *. cbn [RustTokensProofs.ok_def_at] in Ho. apply andb_true_iff in Ho as [H1 Ho]. apply andb_true_iff in Ho as [H2 H3].
      destruct (struct_bodies bc fs (fields_ready fs Hg Ht H3)) as (B1 & B2 & B3).
      unfold encode_struct, decode_struct, size_struct. apply four; try discriminate; [apply item_cons; discriminate|..|exact H]; intros r.
      * exact (proj2 (struct_reads (F := F) bc unprintable (p_items f) c n g fs Hg r) Hw).
      * rewrite encode_impl by assumption. rewrite (proj1 (method_read _ _)), B1. reflexivity.
      * rewrite decode_impl by assumption. rewrite (proj1 (proj2 (proj2 (proj2 (proj2 (method_read _ _)))))), B2. reflexivity.
      * rewrite size_impl by assumption. rewrite (proj1 (proj2 (proj2 (method_read _ _)))), B3. reflexivity.
    + cbn [generates tidy floats RustFile.def_tokens] in *. cbn [RustTokensProofs.ok_def_at] in Ho. apply andb_true_iff in Ho as [H1 Ho]. apply andb_true_iff in Ho as [H2 H3].
      destruct (enum_bodies bc vs (variants_ready vs Hg Ht H3)) as (B1 & B2 & B3).
      unfold encode_enum, decode_enum, size_enum. apply four; try discriminate; [apply item_cons; discriminate|..|exact H]; intros r.
      * exact (proj2 (enum_reads (F := F) bc unprintable (p_items f) c n g vs Hg r) Hw).
      * rewrite encode_impl by assumption. rewrite (proj1 (proj2 (method_read _ _))), B1. reflexivity.
      * rewrite decode_impl by assumption. rewrite (proj2 (proj2 (proj2 (proj2 (proj2 (method_read _ _)))))), B2. reflexivity.
      * rewrite size_impl by assumption. rewrite (proj1 (proj2 (proj2 (proj2 (method_read _ _))))), B3. reflexivity.
    + apply repeated_step; [apply def_cons| |exact H]. exact (proj2 (alias_reads (F := F) bc unprintable (p_items f) c n g t Hg rest) Hw).
    + apply repeated_step; [apply def_cons| |exact H]. exact (proj2 (const_reads bc unprintable float_text (p_items f) c n t v Hg Hf rest) Hw).
    + apply repeated_step; [apply def_cons| |exact H]. assert (Hs : segs <> []) by (cbn [tidy] in Ht; intros ->; discriminate). exact (proj2 (import_reads bc (F := F) (p_items f) segs e Hs rest) Hw).
Qed.
(** The nesting of modules is bounded by the number of tokens. *)
Lemma nesting_bounded (d : sdef F) : (RustTokensProofs.nesting d <= rsizes (def_tokens d))%nat.
Proof.
  induction d as [c n ds IH|d Hno] using PropGoOut.sdef_ind2.
  - cbn [RustTokensProofs.nesting RustFile.def_tokens]. rsz. assert (RustTokensProofs.maxs (map RustTokensProofs.nesting ds) <= rsizes (flat_map def_tokens ds))%nat; [|lia].
    apply RustTokensProofs.maxs_le. intros x Hx. apply in_map_iff in Hx as (d & <- & Hd). specialize (IH d Hd). clear -IH Hd. induction ds as [|y ds IHds]; [destruct Hd|]. cbn [flat_map]. rewrite rsizes_app. destruct Hd as [->|Hd]; [lia|]. specialize (IHds Hd). lia.
  - destruct d; try (cbn [RustTokensProofs.nesting]; lia). exfalso. eapply Hno. reflexivity.
Qed.
Notation schema_tokens := (schema_tokens bc float_text unprintable).
Definition ready (ds : list (sdef F)) : Prop := forallb generates ds = true /\ forallb tidy ds = true /\ (forall d, In d ds -> floats d).
Theorem file_sound ds : ready ds -> file_parses (schema_tokens ds) = true -> forallb okf ds = true.
Proof.
  intros (Hg & Ht & Hf). unfold file_parses, RustFile.schema_tokens. rewrite inside. apply list_sound. rewrite forallb_forall in Hg, Ht. intros d Hd n rest. apply def_sound; auto.
Qed.
Theorem file_complete ds : ready ds -> forallb okt ds = true -> file_parses (schema_tokens ds) = true.
Proof.
  intros (Hg & Ht & Hf) Ho. unfold file_parses. remember (rsizes (schema_tokens ds)) as f eqn:Ef. unfold RustFile.schema_tokens in *. rewrite inside, app_length. change (length prelude) with 10%nat.
  rewrite forallb_forall in Hg, Ht, Ho. apply (repeated_mono _ 9). apply list_complete. intros d Hd. apply def_complete; auto. subst f. rewrite rsizes_app.
  assert (rsizes (def_tokens d) <= rsizes (flat_map def_tokens ds))%nat; [|pose proof (nesting_bounded d); lia]. clear -Hd. induction ds as [|y ds IHds]; [destruct Hd|]. cbn [flat_map]. rewrite rsizes_app. destruct Hd as [->|Hd]; [lia|]. specialize (IHds Hd). lia.
Qed.
End Files.
