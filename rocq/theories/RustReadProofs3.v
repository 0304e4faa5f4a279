(** The emitted functions are read back as trees of the intended meaning: whole functions (used in PropRustText.v). *)
From Verif Require Import Base Varint Wire Codec Syntax Parser Compiler RustFile RustRead RustMeans RustReadProofs RustReadProofs2.
From Verif Require RustCode RustTokens RustTokensProofs Lower LowerProofs.
Import RustCode.
Require Coq.Strings.String.
Import Coq.Strings.String.StringSyntax.
Local Open Scope N_scope.

Section Functions.
Variable bc : bool.
Let bt : bytes_type := if bc then BBytes else BVecU8.
Variable look : list str -> str -> option nat.
Variable params : list str.
Notation lower := (Lower.lower_type look params).
Notation text := (RustFile.data_ty bc).
Notation means := (means lower text).
Notation block := (block lower text).
Notation stmts := (stmts lower text).
Notation ok_ty := RustTokensProofs.ok_ty.

(** * Encoding *)
Lemma wa : hd1 [W w_] = true /\ arg [W w_] (XPath [W w_]).
Proof. apply (var_arg lower text). reflexivity. Qed.
Lemma wm : means (XPath [W w_]) (EVar x_w).
Proof. exact (m_var lower text w_). Qed.
Lemma path_arg p : pathy p -> hd1 p = true -> hd1 p = true /\ arg p (XPath p).
Proof. intros H Hh. split; [exact Hh|]. apply term1_arg; [apply unary_term1, pathy_unary; exact H|exact Hh]. Qed.
Lemma num_arg i : hd1 [num i] = true /\ arg [num i] (XLit (dec_str i)).
Proof. split; [reflexivity|]. apply term1_arg; [apply unary_term1, lit_unary|reflexivity]. Qed.
Lemma class_reads t u root e : code_type_ok t = true -> lower t = Some u -> class_of t = q "::mabo::FieldEncoding::" ++ [W (class_name (fst (gen_encode bt root u e)))].
Proof.
  intros Hc Hl. destruct t; cbn [Lower.lower_type] in Hl.
  - injection Hl as <-. destruct p; reflexivity.
  - destruct (lower t); [|discriminate]. injection Hl as <-. reflexivity.
  - destruct (lower t1), (lower t2); try discriminate. injection Hl as <-. reflexivity.
  - destruct (lower t); [|discriminate]. injection Hl as <-. reflexivity.
  - destruct (lower t); [|discriminate]. injection Hl as <-. reflexivity.
  - cbn [code_type_ok] in Hc. apply andb_true_iff in Hc as [Hn Hc]. destruct t; try discriminate Hn; cbn [Lower.lower_type] in Hl.
    + destruct p; try discriminate Hn; injection Hl as <-; reflexivity.
    + destruct (lower t); [|discriminate]. injection Hl as <-. reflexivity.
    + destruct (lower t1), (lower t2); try discriminate. injection Hl as <-. reflexivity.
    + destruct (lower t); [|discriminate]. injection Hl as <-. reflexivity.
  - destruct (all_opt lower _); [|discriminate]. injection Hl as <-. reflexivity.
  - destruct (lower t); [|discriminate]. injection Hl as <-. reflexivity.
  - destruct (all_opt lower _); [|discriminate]. unfold Lower.lower_ref in Hl. destruct path; [destruct (Lower.position _ _)|].
    + destruct l; [|discriminate]. injection Hl as <-. reflexivity.
    + destruct (look _ _); [|discriminate]. injection Hl as <-. reflexivity.
    + destruct (look _ _); [|discriminate]. injection Hl as <-. reflexivity.
Qed.
Lemma class_path c : pathy (q "::mabo::FieldEncoding::" ++ [W (class_name c)]).
Proof. apply (pathy_abs (tx "mabo") [tx "FieldEncoding"; class_name c]); [reflexivity|]. destruct c; reflexivity. Qed.
Lemma field_id_arg t u root e i : code_type_ok t = true -> lower t = Some u -> exists x,
  (hd1 (mabo_ ++ [w "FieldId"; sep2; w "new"; G Par (num i :: comma :: class_of t)]) = true /\ arg (mabo_ ++ [w "FieldId"; sep2; w "new"; G Par (num i :: comma :: class_of t)]) x)
  /\ means x (EFieldId i (fst (gen_encode bt root u e))).
Proof.
  intros Hc Hl. eexists. split; [split; [reflexivity|]|apply m_field_id]. rewrite (class_reads t u root e Hc Hl). set (c := fst (gen_encode bt root u e)).
  assert (E : mabo_ ++ [w "FieldId"; sep2; w "new"; G Par (num i :: comma :: q "::mabo::FieldEncoding::" ++ [W (class_name c)])]
     = q "::mabo::FieldId::new" ++ [G Par (separated comma [[num i]; q "::mabo::FieldEncoding::" ++ [W (class_name c)]])]) by reflexivity.
  rewrite E. apply term1_arg; [|reflexivity]. apply unary_term1. apply call_unary; [apply (pathy_abs (tx "mabo") [tx "FieldId"; tx "new"]); reflexivity|].
  apply args_sep. constructor; [apply num_arg|]. constructor; [|constructor]. apply path_arg; [apply class_path|reflexivity].
Qed.
Lemma variant_id_arg i : exists x, (hd1 (mabo_ ++ [w "VariantId"; sep2; w "new"; G Par [num i]]) = true /\ arg (mabo_ ++ [w "VariantId"; sep2; w "new"; G Par [num i]]) x) /\ means x (EVariantId i).
Proof.
  eexists. split; [split; [reflexivity|]|apply m_variant_id]. apply term1_arg; [|reflexivity]. apply unary_term1.
  apply (call_unary (q "::mabo::VariantId::new") [num i]); [apply (pathy_abs (tx "mabo") [tx "VariantId"; tx "new"]); reflexivity|]. apply (args_sep [[num i]]). constructor; [apply num_arg|constructor].
Qed.
Lemma option_only t u : lower t = Some (TOption u) -> exists t', t = SOption t'.
Proof.
  intros E. destruct t; cbn [Lower.lower_type] in E; try (eexists; reflexivity); exfalso.
  - destruct p; discriminate E.
  - destruct (lower t); discriminate E.
  - destruct (lower t1), (lower t2); discriminate E.
  - destruct (lower t); discriminate E.
  - destruct (lower t); discriminate E.
  - destruct (all_opt lower _); discriminate E.
  - destruct (lower t); discriminate E.
  - destruct (all_opt lower _) as [us|]; [|discriminate E]. unfold Lower.lower_ref in E. destruct path; [destruct (Lower.position _ _); [destruct us; discriminate E|]|]; destruct (look _ _); discriminate E.
Qed.
Definition field_ok (f : sfield) : Prop := RustTokens.is_ident (sf_name f) = true /\ def_type_ok (sf_ty f) = true /\ code_type_ok (sf_ty f) = true /\ ok_ty (sf_ty f) = true.
Lemma encode_field_reads f f' : field_ok f -> Lower.lower_field look params f = Some f' ->
  exists ts, encode_field bc f = ts ++ [semi] /\ encoded lower text ts (gen_encode_field bt f').
Proof.
  intros (Hi & _ & Hc & _) Hl. unfold Lower.lower_field in Hl. destruct (lower (sf_ty f)) as [u|] eqn:E; [|discriminate]. injection Hl as <-. unfold encode_field, gen_encode_field. cbn [f_ty f_name f_id].
  destruct (sf_ty f) as [p|t|k v|t|t|t|ts|t n|path name gs] eqn:Et.
  5: { cbn [Lower.lower_type] in E. destruct (lower t) as [u'|] eqn:E'; [|discriminate]. injection E as <-. cbn [code_type_ok] in Hc. eexists. split; [reflexivity|].
    destruct (field_id_arg t u' true (EVar x_v) (sf_id f) Hc E') as (x & Hx & Hmx). destruct (gen_encode bt true u' (EVar x_v)) as [enc e] eqn:Eg. cbn [fst] in Hmx.
    pose proof (encode_reads lower text bc look params t true u' _ _ _ Hc E' (nm_var v_ eq_refl)) as He. change (EVar v_) with (EVar x_v) in He. fold bt in He. rewrite Eg in He. cbn [snd] in He.
    destruct (encoded_clos lower text [w_; v_] _ _ eq_refl He) as (y & Hy & Hmy).
    apply (encoded_call lower text look params REncodeFieldOption _ [XPath [W w_]; x; XPath [W (sf_name f)]; y]).
    - repeat (constructor; [first [exact wa|exact Hx|apply (var_arg lower text); exact Hi|exact Hy]|]). constructor.
    - repeat (constructor; [first [exact wm|exact Hmx|constructor|exact Hmy]|]). constructor. }
  all: assert (Hu : match u with TOption _ => False | _ => True end) by (rewrite <- Et in E; destruct u; try exact I; destruct (option_only _ _ E) as (t' & E'); congruence).
  all: rewrite <- Et in *; destruct (field_id_arg (sf_ty f) u true (EVar (sf_name f)) (sf_id f) Hc E) as (x & Hx & Hmx); destruct (gen_encode bt true u (EVar (sf_name f))) as [enc e] eqn:Eg; cbn [fst] in Hmx;
    pose proof (encode_reads lower text bc look params (sf_ty f) true u _ _ _ Hc E (nm_var (sf_name f) Hi)) as He; fold bt in He; rewrite Eg in He; cbn [snd] in He;
    destruct (encoded_clos lower text [w_] _ _ eq_refl He) as (y & Hy & Hmy); rewrite Et in *;
    (eexists; split; [reflexivity|]);
    replace (match u with TOption t0 => _ | _ => _ end) with (ECall REncodeField [EVar x_w; EFieldId (sf_id f) enc; EClos [x_w] (ESeq [e])]) by (destruct u; try contradiction; rewrite Eg; reflexivity);
    (apply (encoded_call lower text look params REncodeField _ [XPath [W w_]; x; y]);
     [repeat (constructor; [first [exact wa|exact Hx|exact Hy]|]); constructor
     |repeat (constructor; [first [exact wm|exact Hmx|exact Hmy]|]); constructor]).
Qed.

(** * Bodies *)
Definition fields_ok (fs : sfields) : Prop := Forall field_ok (ss_fields fs).
Lemma fields_idents fs : fields_ok fs -> idents fs.
Proof. unfold fields_ok, idents, field_names. induction (ss_fields fs) as [|f l IH]; intros H; [reflexivity|]. inversion H as [|? ? Hf Hl]; subst. cbn [map forallb]. rewrite (proj1 Hf). apply IH. exact Hl. Qed.
Lemma lower_fields_kind fs fs' : Lower.lower_fields look params fs = Some fs' -> fs_kind fs' = Lower.lower_kind (ss_kind fs) /\ all_opt (Lower.lower_field look params) (ss_fields fs) = Some (fs_list fs').
Proof. unfold Lower.lower_fields. destruct (all_opt _ _); [|discriminate]. intros H. injection H as <-. split; reflexivity. Qed.
Lemma lowered_names l l' : all_opt (Lower.lower_field look params) l = Some l' -> map f_name l' = map sf_name l.
Proof.
  revert l'. induction l as [|f l IH]; intros l' H; cbn [all_opt] in H; [injection H as <-; reflexivity|]. destruct (Lower.lower_field look params f) as [f'|] eqn:E; [|discriminate].
  destruct (all_opt _ l) as [r|]; [|discriminate]. injection H as <-. unfold Lower.lower_field in E. destruct (lower (sf_ty f)); [|discriminate]. injection E as <-. cbn [map f_name]. rewrite (IH r eq_refl). reflexivity.
Qed.
Lemma names_lowered fs fs' : Lower.lower_fields look params fs = Some fs' -> names_of_fields fs' = match ss_kind fs with SKUnit => [] | _ => field_names fs end.
Proof. intros H. destruct (lower_fields_kind _ _ H) as [Hk Hl]. unfold names_of_fields. rewrite Hk, (lowered_names _ _ Hl). destruct (ss_kind fs); reflexivity. Qed.

Lemma encode_fields_reads fs fs' : fields_ok fs -> Lower.lower_fields look params fs = Some fs' ->
  exists tss, encode_fields bc fs = terminated semi tss /\ Forall2 (encoded lower text) tss (gen_encode_fields bt fs').
Proof.
  intros Hok H. destruct (lower_fields_kind _ _ H) as [Hk Hl]. unfold encode_fields, gen_encode_fields. rewrite Hk.
  assert (Hm : exists tss, flat_map (encode_field bc) (ss_fields fs) = terminated semi tss /\ Forall2 (encoded lower text) tss (map (gen_encode_field bt) (fs_list fs'))).
  { revert Hl. generalize (fs_list fs'). unfold fields_ok in Hok. induction Hok as [|f l Hf Hok IH]; intros l' Hl; cbn [all_opt] in Hl.
    - injection Hl as <-. exists []. split; [reflexivity|constructor].
    - destruct (Lower.lower_field look params f) as [f'|] eqn:E; [|discriminate]. destruct (all_opt _ l) as [r|]; [|discriminate]. injection Hl as <-. destruct (encode_field_reads _ _ Hf E) as (ts & E1 & H1). destruct (IH r eq_refl) as (tss & E2 & H2).
      exists (ts :: tss). cbn [flat_map map]. rewrite E1, E2, terminated_cons, <- app_assoc. split; [reflexivity|]. constructor; assumption. }
  assert (He : encoded lower text (buf (tx "encode_u32") [[W w_]; end_marker]) (ECall (REncode (ScU W32)) [EVar x_w; EEndMarker])).
  { apply (encoded_call lower text look params (REncode (ScU W32)) [[W w_]; end_marker] [XPath [W w_]; XPath end_marker]).
    - constructor; [exact wa|]. constructor; [|constructor]. apply path_arg; [apply (pathy_abs (tx "mabo") [tx "buf"; tx "END_MARKER"]); reflexivity|reflexivity].
    - constructor; [exact wm|]. constructor; [exact (m_end lower text)|constructor]. }
  destruct Hm as (tss & E & Hm). destruct (ss_kind fs); cbn [Lower.lower_kind].
  3: exists []; split; [reflexivity|constructor].
  all: exists (tss ++ [buf (tx "encode_u32") [[W w_]; end_marker]]); rewrite terminated_app, E, terminated_cons; (split; [reflexivity|apply Forall2_app; [exact Hm|constructor; [exact He|constructor]]]).
Qed.
Definition pat_of (path : list rt) (k : fkind) (names : list str) : pat :=
  match k with KNamed => PFields path Brc names | KUnnamed => PFields path Par names | KUnit => PName path end.
Lemma bound_pat p path k names : binds p path k names -> p = pat_of path k names.
Proof. unfold binds, pat_of. destruct k; [trivial|trivial|intros [H _]; exact H]. Qed.
Lemma let_self_fn fs fs' : fields_ok fs -> Lower.lower_fields look params fs = Some fs' -> exists p, stm (let_self fs) [XLet false p None (name_ "self")] /\ binds p (q "Self") (fs_kind fs') (names_of_fields fs').
Proof. intros Hok H. rewrite (names_lowered _ _ H), (proj1 (lower_fields_kind _ _ H)). apply stm_let_self; [exact look|exact params|]. apply fields_idents. exact Hok. Qed.
Lemma let_self_length fs : (1 <= length (let_self fs))%nat.
Proof. unfold let_self. cbn. lia. Qed.
Lemma encode_struct_reads fs fs' : fields_ok fs -> Lower.lower_fields look params fs = Some fs' ->
  exists body, read_body (let_self fs ++ encode_fields bc fs) = Some body
    /\ struct_fn lower text body (fs_kind fs') (Arm (names_of_fields fs') (gen_encode_struct bt fs')).
Proof.
  intros Hok H. destruct (let_self_fn _ _ Hok H) as (p & Hp & Hb). destruct (encode_fields_reads _ _ Hok H) as (tss & E & Hm). destruct (encoded_seq lower text look params tss _ Hm) as (ss & H1 & H2 & H3). rewrite E.
  exists ([XLet false p None (name_ "self")] ++ ss). split.
  - apply (read_blk look params). apply stm_blk; [apply stm_app; assumption|]. rewrite !app_length. pose proof (let_self_length fs). cbn [length]. lia.
  - exists p, ss. split; [reflexivity|]. split; [exact Hb|]. apply b_seq. exact H2.
Qed.

(** * Sizes *)
Lemma size_field_reads f f' : field_ok f -> Lower.lower_field look params f = Some f' ->
  exists l, sized lower text (size_field bc f) l (gen_size_field bt f') /\ terms_of (gen_size_field bt f') = [gen_size_field bt f'].
Proof.
  intros (Hi & _ & Hc & _) Hl. unfold Lower.lower_field in Hl. destruct (lower (sf_ty f)) as [u|] eqn:E; [|discriminate]. injection Hl as <-. unfold size_field, gen_size_field. cbn [f_ty f_name f_id].
  destruct (sf_ty f) as [p|t|k v|t|t|t|ts|t n|path name gs] eqn:Et.
  5: { cbn [Lower.lower_type] in E. destruct (lower t) as [u'|] eqn:E'; [|discriminate]. injection E as <-. cbn [code_type_ok] in Hc.
    destruct (nm_as_ref lower text _ _ _ (nm_var (sf_name f) Hi)) as (x & Hx & Hmx). destruct (size_elem lower text bc look params t u' v_ Hc E' eq_refl) as (y & Hy & Hmy). eexists. split; [|reflexivity].
    apply (sized_call lower text RSizeFieldOption _ [XLit (dec_str (sf_id f)); x; y]).
    - constructor; [apply num_arg|]. constructor; [|constructor; [exact Hy|constructor]]. assert (Hh : hd1 (W (sf_name f) :: as_ref_) = true) by (apply hd2_hd1, hd2_ident; exact Hi). split; [exact Hh|]. apply term1_arg; [exact Hx|exact Hh].
    - constructor; [exact (m_int lower text (sf_id f))|]. constructor; [exact Hmx|]. constructor; [exact Hmy|constructor]. }
  all: assert (Hu : match u with TOption _ => False | _ => True end) by (rewrite <- Et in E; destruct u; try exact I; destruct (option_only _ _ E) as (t' & E'); congruence).
  all: rewrite <- Et in *; destruct (size_reads lower text bc look params (sf_ty f) u _ _ _ Hc E (nm_var (sf_name f) Hi)) as (l & Hs); fold bt in Hs;
    destruct (sized_clos lower text [] _ _ _ eq_refl Hs) as (y & Hy & Hmy); rewrite Et in *;
    replace (match u with TOption t0 => _ | _ => _ end) with (ECall RSizeField [EInt (sf_id f); EClos [] (gen_size bt u (EVar (sf_name f)))]) by (destruct u; try contradiction; reflexivity);
    (eexists; split; [|reflexivity]; apply (sized_call lower text RSizeField _ [XLit (dec_str (sf_id f)); y]);
     [constructor; [apply num_arg|constructor; [exact Hy|constructor]]
     |constructor; [exact (m_int lower text (sf_id f))|constructor; [exact Hmy|constructor]]]).
Qed.
Lemma separated_end c l (x : list rt) : terminated c l ++ x = separated c (l ++ [x]).
Proof.
  induction l as [|y l IH]; [reflexivity|]. rewrite terminated_cons. cbn [app]. rewrite <- app_assoc. cbn [app]. rewrite IH. destruct (l ++ [x]) eqn:E; [destruct l; discriminate|]. rewrite separated_cons. reflexivity.
Qed.
Lemma size_list_reads l l' : Forall field_ok l -> all_opt (Lower.lower_field look params) l = Some l' ->
  Forall2 (fun ts e => (exists x, sized lower text ts x e) /\ terms_of e = [e]) (map (size_field bc) l ++ [end_size]) (map (gen_size_field bt) l' ++ [EEndSize]).
Proof.
  intros Hok. revert l'. induction Hok as [|f l Hf Hok IH]; intros l' Hl; cbn [all_opt] in Hl.
  - injection Hl as <-. constructor; [|constructor]. split; [|reflexivity]. exists [XPath end_size]. apply sized_one; [|exact (m_end_size lower text)|reflexivity|discriminate].
    apply unary_term1, pathy_unary. apply (pathy_abs (tx "mabo") [tx "buf"; tx "END_MARKER_SIZE"]); reflexivity.
  - destruct (Lower.lower_field look params f) as [f'|] eqn:E; [|discriminate]. destruct (all_opt _ l) as [r|]; [|discriminate]. injection Hl as <-. cbn [map app]. constructor; [|apply IH; reflexivity].
    destruct (size_field_reads _ _ Hf E) as (x & H1 & H2). split; [exists x; exact H1|exact H2].
Qed.
Lemma sum_one tss es : Forall2 (fun ts e => (exists x, sized lower text ts x e) /\ terms_of e = [e]) tss es -> tss <> [] ->
  exists l, sized lower text (separated plus tss) l (ESum es).
Proof.
  intros H Hn. destruct (sized_sum lower text look params tss es) as (l & H1 & H2 & H3 & H4); [|exact Hn|].
  - clear Hn. induction H as [|ts e tss es [Hx _] H IH]; constructor; assumption.
  - exists l. split; [exact H1|]. split; [|split; assumption]. cbn [terms_of]. replace (flat_map terms_of es) with es in H2; [exact H2|]. clear -H. induction H as [|ts e tss es [_ Ht] H IH]; [reflexivity|]. cbn [flat_map]. rewrite Ht, <- IH. reflexivity.
Qed.
Lemma size_struct_part fs fs' : fields_ok fs -> Lower.lower_fields look params fs = Some fs' -> exists l, sized lower text (size_fields bc fs) l (gen_size_struct bt fs').
Proof.
  intros Hok H. destruct (lower_fields_kind _ _ H) as [Hk Hl]. unfold size_fields, gen_size_struct. rewrite Hk. pose proof (size_list_reads _ _ Hok Hl) as Hs.
  destruct (ss_kind fs); cbn [Lower.lower_kind].
  1,2: rewrite separated_end; apply sum_one; [exact Hs|destruct (map (size_field bc) (ss_fields fs)); discriminate].
  exists [XLit (dec_str 0)]. apply sized_one; [apply unary_term1, lit_unary|exact (m_int lower text 0)|reflexivity|discriminate].
Qed.
Lemma size_struct_reads fs fs' : fields_ok fs -> Lower.lower_fields look params fs = Some fs' ->
  exists body, read_body (let_self fs ++ size_fields bc fs) = Some body
    /\ struct_fn lower text body (fs_kind fs') (Arm (names_of_fields fs') (gen_size_struct bt fs')).
Proof.
  intros Hok H. destruct (let_self_fn _ _ Hok H) as (p & Hp & Hb). destruct (size_struct_part _ _ Hok H) as (l & H1 & H2 & H3 & H4).
  exists ([XLet false p None (name_ "self")] ++ [XTail (mk_sum l)]). split.
  - apply (read_blk look params). apply stm_tail; [exact Hp|apply let_self_length|apply terms_arg; [exact H1|exact H3|apply hd2_hd1; exact H4]|exact H4].
  - exists p, [XTail (mk_sum l)]. split; [reflexivity|]. split; [exact Hb|]. constructor. apply means_terms. exact H2.
Qed.

(** * Enums *)
Definition variant_ok (v : svariant) : Prop := RustTokens.is_ident (sv_name v) = true /\ fields_ok (sv_fields v).
Lemma self_path n : RustTokens.is_ident n = true -> pathy [w "Self"; sep2; W n].
Proof. intros H. apply (pathy_rel (tx "Self") [n]); [reflexivity|]. cbn [forallb]. unfold RustTokens.segment_name. rewrite H. reflexivity. Qed.
Lemma variant_arm_reads v v' l b : variant_ok v -> Lower.lower_variant look params v = Some v' -> blk l b ->
  exists p, armed (w "Self" :: sep2 :: W (sv_name v) :: names_of (sv_fields v) ++ [fat; G Brc l]) (p, XBlock b)
    /\ binds p (q "Self::" ++ [W (sv_name v)]) (fs_kind (v_fields v')) (names_of_fields (v_fields v')).
Proof.
  intros [Hn Hok] Hl Hb. unfold Lower.lower_variant in Hl. destruct (Lower.lower_fields look params (sv_fields v)) as [fs'|] eqn:E; [|discriminate]. injection Hl as <-. cbn [v_fields].
  rewrite (names_lowered _ _ E), (proj1 (lower_fields_kind _ _ E)). set (path := [w "Self"; sep2; W (sv_name v)]).
  assert (Hp : forall r, exists p, p_pat (path ++ names_of (sv_fields v) ++ fat :: r) = Some (p, fat :: r)
     /\ binds p path (Lower.lower_kind (ss_kind (sv_fields v))) (match ss_kind (sv_fields v) with SKUnit => [] | _ => field_names (sv_fields v) end)).
  { intros r. apply names_pat; [apply self_path; exact Hn|apply fields_idents; exact Hok|]. intros _. reflexivity. }
  exists (pat_of path (Lower.lower_kind (ss_kind (sv_fields v))) (match ss_kind (sv_fields v) with SKUnit => [] | _ => field_names (sv_fields v) end)). split.
  - apply (a_block (path ++ names_of (sv_fields v))); [discriminate| |exact Hb]. intros r. rewrite <- app_assoc. destruct (Hp r) as (p & Hr & Hbp). rewrite Hr, (bound_pat _ _ _ _ Hbp). reflexivity.
  - destruct (Hp []) as (p & _ & Hbp). pose proof Hbp as Hbp'. rewrite (bound_pat _ _ _ _ Hbp) in Hbp'. exact Hbp'.
Qed.
Lemma enum_reads (F : svariant -> list rt) (B : svariant -> list rt) (g : variant -> expr) vs vs' :
  (forall v, F v = w "Self" :: sep2 :: W (sv_name v) :: names_of (sv_fields v) ++ [fat; G Brc (B v)]) ->
  (forall v v', variant_ok v -> Lower.lower_variant look params v = Some v' -> exists b, blk (B v) b /\ block b (g v')) ->
  Forall variant_ok vs -> all_opt (Lower.lower_variant look params) vs = Some vs' ->
  exists body, read_body (match_self (map F vs)) = Some body
    /\ enum_fn lower text body (map (fun v => (sv_name v, Lower.lower_kind (ss_kind (sv_fields v)))) vs) (map (fun v => Arm (names_of_fields (v_fields v)) (g v)) vs').
Proof.
  intros HF HB Hok Hl.
  assert (Hm : exists arms, Forall2 armed (map F vs) arms /\ length vs' = length vs /\
     Forall2 (fun '(p, x) '((n, k), a) => exists b, x = XBlock b /\ binds p (q "Self::" ++ [W n]) k (a_names a) /\ block b (a_body a))
       arms (combine (map (fun v => (sv_name v, Lower.lower_kind (ss_kind (sv_fields v)))) vs) (map (fun v => Arm (names_of_fields (v_fields v)) (g v)) vs'))).
  { revert vs' Hl. induction Hok as [|v vs Hv Hok IH]; intros vs' Hl; cbn [all_opt] in Hl.
    - injection Hl as <-. exists []. split; [constructor|]. split; [reflexivity|constructor].
    - destruct (Lower.lower_variant look params v) as [v'|] eqn:E; [|discriminate]. destruct (all_opt _ vs) as [r|]; [|discriminate]. injection Hl as <-. destruct (IH r eq_refl) as (arms & H1 & H2 & H3).
      destruct (HB v v' Hv E) as (b & Hb & Hbl). destruct (variant_arm_reads v v' (B v) b Hv E Hb) as (p & Ha & Hp). exists ((p, XBlock b) :: arms). cbn [map combine]. rewrite HF. split; [constructor; assumption|]. split; [cbn [length]; congruence|].
      constructor; [|exact H3]. exists b. split; [reflexivity|]. split; [|exact Hbl]. cbn [a_names].
      unfold Lower.lower_variant in E. destruct (Lower.lower_fields look params (sv_fields v)) as [fs'|] eqn:E2; [|discriminate]. injection E as <-. cbn [v_fields] in *. rewrite <- (proj1 (lower_fields_kind _ _ E2)). exact Hp. }
  destruct Hm as (arms & H1 & H2 & H3). exists [XTail (XMatch (name_ "self") arms)]. split.
  - apply (read_blk look params). apply stm_blk; [|cbn; lia]. apply (stm_match look params [w "self"] (name_ "self")); [|exact H1]. apply path_scrut. apply (pathy_rel (tx "self") []); reflexivity.
  - exists arms. split; [reflexivity|]. split; [exact H3|]. rewrite !map_length. congruence.
Qed.
Lemma encode_variant_block v v' : variant_ok v -> Lower.lower_variant look params v = Some v' ->
  exists b, blk (buf (tx "encode_variant_id") [[W w_]; mabo_ ++ [w "VariantId"; sep2; w "new"; G Par [num (sv_id v)]]] ++ semi :: encode_fields bc (sv_fields v)) b /\ block b (gen_encode_variant bt v').
Proof.
  intros [Hn Hok] Hl. unfold Lower.lower_variant in Hl. destruct (Lower.lower_fields look params (sv_fields v)) as [fs'|] eqn:E; [|discriminate]. injection Hl as <-. unfold gen_encode_variant. cbn [v_fields v_id].
  destruct (encode_fields_reads _ _ Hok E) as (tss & Et & Hm). destruct (variant_id_arg (sv_id v)) as (x & Hx & Hmx).
  assert (He : encoded lower text (buf (tx "encode_variant_id") [[W w_]; mabo_ ++ [w "VariantId"; sep2; w "new"; G Par [num (sv_id v)]]]) (ECall REncodeVariantId [EVar x_w; EVariantId (sv_id v)])).
  { apply (encoded_call lower text look params REncodeVariantId _ [XPath [W w_]; x]).
    - constructor; [exact wa|]. constructor; [exact Hx|constructor].
    - constructor; [exact wm|]. constructor; [exact Hmx|constructor]. }
  destruct (encoded_seq lower text look params (_ :: tss) (_ :: _) (Forall2_cons _ _ He Hm)) as (ss & H1 & H2 & H3). rewrite terminated_cons, <- Et in *. exists ss. split; [apply stm_blk; assumption|]. apply b_seq. exact H2.
Qed.
Lemma encode_enum_reads vs vs' : Forall variant_ok vs -> all_opt (Lower.lower_variant look params) vs = Some vs' ->
  exists body, read_body (match_self (map (encode_variant bc) vs)) = Some body
    /\ enum_fn lower text body (map (fun v => (sv_name v, Lower.lower_kind (ss_kind (sv_fields v)))) vs) (gen_encode_def bt (DEnum vs')).
Proof. intros Hok Hl. refine (enum_reads _ _ (gen_encode_variant bt) vs vs' _ encode_variant_block Hok Hl). reflexivity. Qed.
Lemma size_variant_block v v' : variant_ok v -> Lower.lower_variant look params v = Some v' ->
  exists b, blk (match ss_kind (sv_fields v) with SKUnit => buf (tx "size_variant_id") [[num (sv_id v)]] | _ => buf (tx "size_variant_id") [[num (sv_id v)]] ++ plus :: size_fields bc (sv_fields v) end) b /\ block b (gen_size_variant bt v').
Proof.
  intros [Hn Hok] Hl. unfold Lower.lower_variant in Hl. destruct (Lower.lower_fields look params (sv_fields v)) as [fs'|] eqn:E; [|discriminate]. injection Hl as <-. unfold gen_size_variant. cbn [v_fields v_id].
  destruct (lower_fields_kind _ _ E) as [Hk Hll]. pose proof (size_list_reads _ _ Hok Hll) as Hs. rewrite Hk. unfold size_fields.
  assert (He : sized lower text (buf (tx "size_variant_id") [[num (sv_id v)]]) [call_ (tx "size_variant_id") [XLit (dec_str (sv_id v))]] (ECall RSizeVariantId [EInt (sv_id v)])).
  { apply (sized_call lower text RSizeVariantId); [constructor; [apply num_arg|constructor]|]. constructor; [exact (m_int lower text (sv_id v))|constructor]. }
  assert (Hsum : exists b, blk (buf (tx "size_variant_id") [[num (sv_id v)]] ++ plus :: terminated plus (map (size_field bc) (ss_fields (sv_fields v))) ++ end_size) b
      /\ block b (ESum (ECall RSizeVariantId [EInt (sv_id v)] :: map (gen_size_field bt) (fs_list fs') ++ [EEndSize]))).
  { rewrite separated_end. assert (Hne : exists y l, map (size_field bc) (ss_fields (sv_fields v)) ++ [end_size] = y :: l) by (destruct (map (size_field bc) (ss_fields (sv_fields v))); eexists _, _; reflexivity).
    destruct Hne as (y & l & Hy). rewrite Hy in *. rewrite <- separated_cons. destruct (sum_one (buf (tx "size_variant_id") [[num (sv_id v)]] :: y :: l) (ECall RSizeVariantId [EInt (sv_id v)] :: map (gen_size_field bt) (fs_list fs') ++ [EEndSize])) as (x & Hx).
    - constructor; [split; [eexists; exact He|reflexivity]|exact Hs].
    - discriminate.
    - exact (sized_blk lower text _ _ _ Hx). }
  destruct (ss_kind (sv_fields v)); cbn [Lower.lower_kind]; [exact Hsum|exact Hsum|]. exact (sized_blk lower text _ _ _ He).
Qed.
Lemma size_enum_reads vs vs' : Forall variant_ok vs -> all_opt (Lower.lower_variant look params) vs = Some vs' ->
  exists body, read_body (match_self (map (size_variant bc) vs)) = Some body
    /\ enum_fn lower text body (map (fun v => (sv_name v, Lower.lower_kind (ss_kind (sv_fields v)))) vs) (gen_size_def bt (DEnum vs')).
Proof. intros Hok Hl. refine (enum_reads _ _ (gen_size_variant bt) vs vs' _ size_variant_block Hok Hl). reflexivity. Qed.
End Functions.
