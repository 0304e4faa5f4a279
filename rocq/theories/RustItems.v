(** The step from types to definitions. *)
From Verif Require Import Base Varint Wire Codec Compiler SchemaSpec RustCode RustEval RustTyping RustSpec Safety RustTypingProofs RustTypeChecks.
Local Open Scope N_scope.

Definition no_gen_fields (fs : fields) : Prop := forall f, In f (fs_list fs) -> no_gen (f_ty f) = true.
Definition no_gen_def (d : def) : Prop := forall fs, In fs (bodies d) -> no_gen_fields fs.

Fixpoint nodupb (l : list ident) : bool :=
  match l with [] => true | x :: l' => negb (existsb (list_eqb N.eqb x) l') && nodupb l' end.
Lemma nodupb_iff l : nodupb l = true <-> NoDup l.
Proof.
  induction l as [|x l IH]; cbn [nodupb]; [split; [constructor|reflexivity]|].
  rewrite andb_true_iff, IH, negb_true_iff. split.
  - intros [H1 H2]. constructor; [|exact H2]. intros Hin. rewrite <- not_true_iff_false in H1. apply H1.
    apply existsb_exists. exists x. split; [exact Hin|apply name_eqb_refl].
  - intros H. inversion H as [|y m Hy Hm]; subst. split; [|exact Hm]. apply not_true_iff_false. intros E.
    apply existsb_exists in E as (y & Hin & E). apply name_eqb_eq in E as ->. contradiction.
Qed.

Lemma find_var_app {A} x (l m : list (ident * A)) : ~ In x (map fst l) -> find_var x (l ++ m) = find_var x m.
Proof.
  induction l as [|[y a] l IH]; intros H; [reflexivity|]. cbn [app]. cbn [map fst] in H. rewrite find_var_neq; [apply IH|]; intros E; apply H.
  - right. exact E.
  - left. symmetry. exact E.
Qed.
Lemma find_var_app_in {A} x (l m : list (ident * A)) a : find_var x l = Some a -> find_var x (l ++ m) = Some a.
Proof.
  induction l as [|[y b] l IH]; [discriminate|]. cbn [app find_var]. destruct (list_eqb N.eqb x y); [tauto|exact IH].
Qed.
Lemma find_var_nodup {A} (l : list (ident * A)) x a : NoDup (map fst l) -> In (x, a) l -> find_var x l = Some a.
Proof.
  induction l as [|[y b] l IH]; intros Hnd Hin; [destruct Hin|]. cbn [map fst] in Hnd. inversion Hnd as [|? ? Hy Hl]; subst.
  destruct Hin as [E|Hin]; [injection E as -> ->; apply find_var_eq|].
  rewrite find_var_neq; [apply IH; assumption|]. intros ->. apply Hy. apply in_map_iff. exists (y, a). split; [reflexivity|exact Hin].
Qed.
Lemma find_var_none {A} (l : list (ident * A)) x : ~ In x (map fst l) -> find_var x l = None.
Proof. intros H. rewrite <- (app_nil_r l). rewrite find_var_app by exact H. reflexivity. Qed.
Lemma find_var_in {A} (l : list (ident * A)) x : In x (map fst l) -> exists a, find_var x l = Some a /\ In (x, a) l.
Proof.
  induction l as [|[y b] l IH]; intros Hin; [destruct Hin|]. cbn [find_var]. destruct (list_eqb N.eqb x y) eqn:E.
  - apply name_eqb_eq in E as ->. exists b. split; [reflexivity|left; reflexivity].
  - destruct Hin as [E0|Hin]; [cbn [fst] in E0; subst y; rewrite name_eqb_refl in E; discriminate|]. destruct (IH Hin) as (a & Ha & Hi). exists a. split; [exact Ha|right; exact Hi].
Qed.

Lemma forall2_left {A B} (f : A -> option B) l m : Forall2 (fun a b => f a = Some b) l m -> forall a, In a l -> exists b, f a = Some b.
Proof.
  induction 1 as [|a b l m Hab HF IH]; intros x Hin; [destruct Hin|]. destruct Hin as [->|Hin]; [exists b; exact Hab|exact (IH x Hin)].
Qed.

Section Items.
Variable bt : bytes_type.

Definition rtf (f : field) : option rty := rust_type bt (f_ty f).

(** The variables bound by the pattern. *)
Lemma bound_ctx l ts : Forall2 (fun f r => rtf f = Some r) l ts ->
  map fst (combine (map f_name l) (map RRef ts)) = map f_name l
  /\ (forall f r, In f l -> rtf f = Some r -> In (f_name f, RRef r) (combine (map f_name l) (map RRef ts))).
Proof.
  induction 1 as [|f r l ts Hf HF [IH1 IH2]]; [split; [reflexivity|intros ? ? []]|].
  cbn [map combine fst]. split; [rewrite IH1; reflexivity|].
  intros g r' [->|Hin] Hr'; [left; congruence|right; exact (IH2 g r' Hin Hr')].
Qed.

Definition fld_enc (f : field) : bool := enc_fits bt true 0 (match f_ty f with TOption t => t | t => t end).

Lemma size_field_typed g f r : no_gen (f_ty f) = true -> rtf f = Some r -> find_var (f_name f) g = Some (RRef r) ->
  tc bt size_bounds g (gen_size_field bt f) = guard (size_fits bt 0 (f_ty f)) (Some RUsize).
Proof.
  intros Hng Hr Hf. unfold size_fits, gen_size_field.
  assert (Hd : (match f_ty f with TOption _ => False | _ => True end) ->
     tc bt size_bounds g (ECall RSizeField [EInt (f_id f); EClos [] (gen_size bt (f_ty f) (EVar (f_name f)))])
     = guard (size_fit bt size_bounds 0 (f_ty f)) (Some RUsize)).
  { intros _. cbn [tc]. f_equal. assert (Hp : placed bt size_bounds g 0 1 (EVar (f_name f)) r).
    { exists (EVar (f_name f)). split; [exact I|]. split; [reflexivity|]. split; [exact Hf|lia]. }
    exact (size_typed bt size_bounds (f_ty f) Hng 0%nat 1%nat _ g r Hr (or_intror eq_refl) Hp). }
  unfold rtf in Hr. revert Hng Hr Hd. destruct (f_ty f) eqn:Et; intros Hng Hr Hd; try (exact (Hd I)). clear Hd. cbn [rust_type] in Hr. destruct (rust_type bt t) as [r'|] eqn:Er; [|discriminate]. injection Hr as <-.
  cbn [tc]. rewrite Hf. cbn [obind steps first as_option size_fit Nat.eqb andb]. f_equal. exact (size_elem bt size_bounds t r' g x_v Hng Er).
Qed.

Lemma sum_typed g es e : tc bt size_bounds g e = Some RUsize ->
  has_type (tc bt size_bounds g (ESum (es ++ [e]))) RUsize = forallb (addable bt size_bounds g) es.
Proof.
  intros He. destruct es as [|a es]; [cbn [app tc]; rewrite He; reflexivity|].
  assert (H : tc bt size_bounds g (ESum ((a :: es) ++ [e])) = guard (forallb (addable bt size_bounds g) ((a :: es) ++ [e])) (Some RUsize)).
  { cbn [app]. destruct (es ++ [e]) as [|b l] eqn:E; [destruct es; discriminate|reflexivity]. }
  rewrite H, forallb_app. cbn [forallb]. unfold addable at 3. rewrite He. cbn [is_usize]. rewrite !andb_true_r.
  destruct (addable bt size_bounds g a && forallb (addable bt size_bounds g) es); reflexivity.
Qed.

Lemma sum_fields_typed g l : (forall f, In f l -> exists r, rtf f = Some r /\ find_var (f_name f) g = Some (RRef r)) ->
  (forall f, In f l -> no_gen (f_ty f) = true) ->
  forallb (addable bt size_bounds g) (map (gen_size_field bt) l) = forallb (fun f => size_fits bt 0 (f_ty f)) l.
Proof.
  induction l as [|f l IH]; intros Hf Hng; [reflexivity|]. cbn [map forallb].
  destruct (Hf f (or_introl eq_refl)) as (r & Hr & Hv). unfold addable at 1.
  rewrite (size_field_typed g f r (Hng f (or_introl eq_refl)) Hr Hv), IH;
    [|intros x Hx; apply Hf; right; exact Hx|intros x Hx; apply Hng; right; exact Hx].
  destruct (size_fits bt 0 (f_ty f)); reflexivity.
Qed.

Lemma forallb_in_iff {A} (p : A -> bool) l : forallb p l = true <-> forall a, In a l -> p a = true.
Proof. apply forallb_forall. Qed.

Lemma enc_field_typed g f r : no_gen (f_ty f) = true -> rtf f = Some r -> find_var (f_name f) g = Some (RRef r) ->
  f_name f <> x_w -> writes g -> is_some (tc bt encode_bounds g (gen_encode_field bt f)) = fld_enc f.
Proof.
  intros Hng Hr Hf Hx Hw. unfold fld_enc, enc_fits, gen_encode_field.
  assert (Hd : is_some (tc bt encode_bounds g (let (enc, e) := gen_encode bt true (f_ty f) (EVar (f_name f)) in
         ECall REncodeField [EVar x_w; EFieldId (f_id f) enc; EClos [x_w] (ESeq [e])]))
      = enc_fit bt encode_bounds true 0 (f_ty f)).
  { destruct (gen_encode bt true (f_ty f) (EVar (f_name f))) as [enc e] eqn:Eg. remember (ESeq [e]) as body eqn:Eb.
    cbn [tc]. rewrite some_guard, (is_writer_ok g Hw). subst body. rewrite seq_one. cbn [andb].
    assert (He : e = snd (gen_encode bt true (f_ty f) (EVar (f_name f)))) by (rewrite Eg; reflexivity). rewrite He.
    apply (enc_root bt encode_bounds (f_ty f) (f_name f) r _ Hng Hr Hx); [|apply writes_w]. rewrite find_var_neq by exact Hx. exact Hf. }
  unfold rtf in Hr. revert Hng Hr Hd. destruct (f_ty f) eqn:Et; intros Hng Hr Hd; try exact Hd. clear Hd. cbn [rust_type] in Hr. destruct (rust_type bt t) as [r'|] eqn:Er; [|discriminate]. injection Hr as <-.
  destruct (gen_encode bt true t (EVar x_v)) as [enc e] eqn:Eg. remember (ESeq [e]) as body eqn:Eb.
  cbn [tc]. rewrite Hf. cbn [obind coerce steps first as_option]. rewrite some_guard, (is_writer_ok g Hw). subst body. rewrite seq_one. cbn [andb].
  assert (He : e = snd (gen_encode bt true t (EVar x_v))) by (rewrite Eg; reflexivity). rewrite He.
  apply (enc_root bt encode_bounds t x_v r' _ Hng Er v_not_w); [apply find_var_eq|]. apply writes_var; [exact v_not_w|apply writes_w].
Qed.

Lemma fits_field_iff f r : no_gen (f_ty f) = true -> rtf f = Some r ->
  fits bt 0 (f_ty f) = true <-> size_fits bt 0 (f_ty f) = true /\ fld_enc f = true /\ dec_fits bt (f_ty f) = true.
Proof.
  intros Hng Hr. rewrite (fits_root_iff bt (f_ty f) Hng r Hr). unfold fld_enc. unfold rtf in Hr. revert Hng Hr. destruct (f_ty f) eqn:Et; intros Hng Hr; try tauto.
  cbn [rust_type] in Hr. destruct (rust_type bt t) as [r'|] eqn:Er; [|discriminate].
  assert (Hs : size_fits bt 0 (TOption t) = size_fits bt 0 t) by reflexivity. rewrite Hs.
  assert (He : enc_fits bt true 0 (TOption t) = enc_fits bt false 0 t) by reflexivity. rewrite He.
  split; intros (H1 & H2 & H3); (split; [exact H1|]); (split; [|exact H3]); [rewrite enc_root_iff by exact H1|rewrite <- enc_root_iff by exact H1]; exact H2.
Qed.

(** Declared variables. *)
Definition decls (l : list field) (ts : list rty) : ctx :=
  combine (map f_name l) (map (fun '(f, r) => match f_ty f with TOption _ => r | _ => ROption r end) (combine l ts)).
Lemma declared_ctx l ts g : Forall2 (fun f r => rtf f = Some r) l ts ->
  declared bt (map gen_var l) g = Some (rev (decls l ts) ++ g).
Proof.
  unfold declared, decls. intros H. revert g. induction H as [|f r l ts Hf HF IH]; intros g; [reflexivity|].
  assert (E : rust_type bt (snd (gen_var f)) = Some (match f_ty f with TOption _ => r | _ => ROption r end)).
  { unfold rtf in Hf. cbn [gen_var snd]. destruct (f_ty f); cbn [rust_type] in *; try (rewrite Hf); try reflexivity; congruence. }
  cbn [map fold_left combine rev]. rewrite <- app_assoc. cbn [app].
  destruct (gen_var f) as [x t] eqn:Eg. assert (x = f_name f) as -> by (unfold gen_var in Eg; congruence).
  cbn [snd] in E. cbn [obind]. rewrite E. cbn [obind]. apply IH.
Qed.
Lemma decls_spec l ts : Forall2 (fun f r => rtf f = Some r) l ts ->
  map fst (decls l ts) = map f_name l
  /\ (forall f r, In f l -> rtf f = Some r -> In (f_name f, match f_ty f with TOption _ => r | _ => ROption r end) (decls l ts)).
Proof.
  unfold decls. induction 1 as [|f r l ts Hf HF [IH1 IH2]]; [split; [reflexivity|intros ? ? []]|].
  cbn [map combine fst]. split; [rewrite IH1; reflexivity|].
  intros f' r' [->|Hin] Hr'; [left; assert (r' = r) by congruence; subst; reflexivity|right; exact (IH2 f' r' Hin Hr')].
Qed.
Lemma find_decl l ts f r g : Forall2 (fun f r => rtf f = Some r) l ts -> NoDup (map f_name l) -> In f l -> rtf f = Some r ->
  find_var (f_name f) (rev (decls l ts) ++ g) = Some (match f_ty f with TOption _ => r | _ => ROption r end).
Proof.
  intros HF Hnd Hin Hr. destruct (decls_spec l ts HF) as [H1 H2]. apply find_var_app_in. apply find_var_nodup.
  - rewrite map_rev, H1. apply NoDup_rev. exact Hnd.
  - rewrite <- in_rev. exact (H2 f r Hin Hr).
Qed.

Lemma dec_arm_typed f r g : no_gen (f_ty f) = true -> rtf f = Some r -> reads g ->
  find_var (f_name f) g = Some (match f_ty f with TOption _ => r | _ => ROption r end) ->
  (let '(_, x, e) := gen_arm bt f in match find_var x g with Some (ROption t) => dtc bt decode_bounds g e t | _ => false end) = dec_fits bt (f_ty f).
Proof.
  intros Hng Hr Hrd Hf. unfold gen_arm. rewrite Hf.
  pose proof (dec_typed bt decode_bounds (f_ty f) Hng true g r Hr Hrd) as H.
  unfold rtf in Hr. revert Hng Hr H. destruct (f_ty f) eqn:Et; intros Hng Hr H; try exact H. clear H.
  cbn [rust_type] in Hr. destruct (rust_type bt t) as [r'|] eqn:Er; [|discriminate]. injection Hr as <-.
  exact (dec_typed bt decode_bounds t Hng true g r' Er Hrd).
Qed.

Lemma list_eqb_map_refl l : list_eqb rty_eqb l l = true.
Proof. induction l as [|a l IH]; [reflexivity|]. cbn [list_eqb]. rewrite rty_eqb_refl. exact IH. Qed.

Lemma built_types kind l ts g : Forall2 (fun f r => rtf f = Some r) l ts ->
  (forall f r, In f l -> rtf f = Some r -> find_var (f_name f) g = Some (match f_ty f with TOption _ => r | _ => ROption r end)) ->
  map (fun '(x, req) => match find_var x g, req with
                        | Some (ROption t), Some _ => t
                        | Some (ROption t), None => ROption t
                        | _, _ => RUnit
                        end) (map (gen_assign kind) l) = ts.
Proof.
  induction 1 as [|f r l ts Hf HF IH]; intros H; [reflexivity|]. cbn [map].
  rewrite IH by (intros f' r' Hin; apply H; right; exact Hin). f_equal. unfold gen_assign.
  rewrite (H f r (or_introl eq_refl) Hf). unfold rtf in Hf. destruct (f_ty f) eqn:Et; try reflexivity.
  cbn [rust_type] in Hf. destruct (rust_type bt t); [|discriminate]. injection Hf as <-. reflexivity.
Qed.

Section Fields.
Variable fs : fields.
Variable ts : list rty.
Hypothesis Hkind : fs_kind fs <> KUnit.
Hypothesis Hts : all_opt rtf (fs_list fs) = Some ts.
Hypothesis Hng : no_gen_fields fs.
Hypothesis Hnd : NoDup (map f_name (fs_list fs)).

Let HF : Forall2 (fun f r => rtf f = Some r) (fs_list fs) ts := all_opt_forall2 _ _ _ Hts.
Let Hex : forall f, In f (fs_list fs) -> exists r, rtf f = Some r := forall2_left rtf _ _ HF.
Let g0 : ctx := combine (map f_name (fs_list fs)) (map RRef ts).
Let Hg0 : map fst g0 = map f_name (fs_list fs) := proj1 (bound_ctx _ _ HF).
Let Hbound : forall f, In f (fs_list fs) -> exists r, rtf f = Some r /\ find_var (f_name f) g0 = Some (RRef r).
Proof.
  intros f Hin. destruct (Hex f Hin) as [r Hr]. exists r. split; [exact Hr|]. apply find_var_nodup; [exact (eq_ind_r (@NoDup ident) Hnd Hg0)|].
  exact (proj2 (bound_ctx _ _ HF) f r Hin Hr).
Qed.

Lemma size_sum_typed' e0 e : tc bt size_bounds g0 e0 = Some RUsize -> tc bt size_bounds g0 e = Some RUsize ->
  has_type (tc bt size_bounds g0 (ESum (e0 :: map (gen_size_field bt) (fs_list fs) ++ [e]))) RUsize = true
  <-> forall f, In f (fs_list fs) -> size_fits bt 0 (f_ty f) = true.
Proof.
  intros H0 He. change (e0 :: map (gen_size_field bt) (fs_list fs) ++ [e]) with ((e0 :: map (gen_size_field bt) (fs_list fs)) ++ [e]).
  rewrite (sum_typed g0 _ e He). cbn [forallb]. unfold addable at 1. rewrite H0. cbn [is_usize andb].
  rewrite (sum_fields_typed g0 (fs_list fs) Hbound Hng). apply forallb_in_iff.
Qed.
Lemma size_sum_typed e : tc bt size_bounds g0 e = Some RUsize ->
  has_type (tc bt size_bounds g0 (ESum (map (gen_size_field bt) (fs_list fs) ++ [e]))) RUsize = true
  <-> forall f, In f (fs_list fs) -> size_fits bt 0 (f_ty f) = true.
Proof.
  intros He. rewrite (sum_typed g0 _ e He), (sum_fields_typed g0 (fs_list fs) Hbound Hng). apply forallb_in_iff.
Qed.

Lemma w_missing : In x_w (map f_name (fs_list fs)) -> is_writer (g0 ++ [(x_w, RWriterT)]) (EVar x_w) = false.
Proof.
  intros Hin. cbn [is_writer]. rewrite <- Hg0 in Hin. destruct (find_var_in g0 x_w Hin) as (a & Ha & Hi).
  rewrite (find_var_app_in _ _ _ _ Ha).
  assert (exists r, a = RRef r) as [r ->]; [|reflexivity].
  clear - Hi. unfold g0 in Hi. apply in_combine_r in Hi. apply in_map_iff in Hi as (r & <- & _). exists r. reflexivity.
Qed.

Lemma encode_typed_iff pre : (forall g e, In e pre -> is_some (tc bt encode_bounds g e) = is_writer g (EVar x_w)) ->
  has_type (tc bt encode_bounds (g0 ++ [(x_w, RWriterT)]) (ESeq (pre ++ gen_encode_fields bt fs))) RUnit = true
  <-> ~ In x_w (map f_name (fs_list fs)) /\ forall f, In f (fs_list fs) -> fld_enc f = true.
Proof.
  intros Hpre. set (g := g0 ++ [(x_w, RWriterT)]).
  assert (Hseq : forall l, has_type (tc bt encode_bounds g (ESeq l)) RUnit = forallb (fun e => is_some (tc bt encode_bounds g e)) l).
  { intros l. cbn [tc]. destruct (forallb (fun e => is_some (tc bt encode_bounds g e)) l); reflexivity. }
  rewrite Hseq.
  assert (Hfs : gen_encode_fields bt fs = map (gen_encode_field bt) (fs_list fs) ++ [ECall (REncode (ScU W32)) [EVar x_w; EEndMarker]])
    by (unfold gen_encode_fields; destruct (fs_kind fs); [reflexivity|reflexivity|contradiction]).
  rewrite Hfs, !forallb_app. cbn [forallb].
  assert (Hend : is_some (tc bt encode_bounds g (ECall (REncode (ScU W32)) [EVar x_w; EEndMarker])) = is_writer g (EVar x_w)).
  { cbn [tc has_type rty_eqb scalar_eqb width_eqb]. rewrite andb_true_r. apply some_guard. }
  rewrite Hend, !andb_true_iff.
  destruct (In_dec (list_eq_dec N.eq_dec) x_w (map f_name (fs_list fs))) as [Hin|Hin].
  - unfold g. rewrite (w_missing Hin). split; [intros (_ & _ & H & _); discriminate|intros [H _]; contradiction].
  - assert (Hw : writes g). { unfold writes, g. rewrite find_var_app; [apply find_var_eq|]. rewrite Hg0. exact Hin. }
    rewrite (is_writer_ok g Hw), !forallb_in_iff. split.
    + intros (_ & H & _). split; [exact Hin|]. intros f Hf. rewrite <- (H (gen_encode_field bt f)) by (apply in_map; exact Hf).
      destruct (Hbound f Hf) as (r & Hr & Hv). symmetry. apply (enc_field_typed g f r (Hng f Hf) Hr); [apply find_var_app_in; exact Hv| |exact Hw].
      intros E. apply Hin. rewrite <- E. apply in_map. exact Hf.
    + intros [_ H]. assert (H' : forall x, In x (map (gen_encode_field bt) (fs_list fs)) -> is_some (tc bt encode_bounds g x) = true).
      { intros e He. apply in_map_iff in He as (f & <- & Hf). destruct (Hbound f Hf) as (r & Hr & Hv).
        rewrite (enc_field_typed g f r (Hng f Hf) Hr); [exact (H f Hf)|apply find_var_app_in; exact Hv| |exact Hw].
        intros E. apply Hin. rewrite <- E. apply in_map. exact Hf. }
      split; [|split; [exact H'|split; reflexivity]].
      intros e He. rewrite (Hpre g e He). apply is_writer_ok. exact Hw.
Qed.

Lemma decode_typed_iff :
  dbody_ok bt decode_bounds (gen_decode_fields bt fs) [(x_r, RReaderT)] ts = true
  <-> ~ In x_r (map f_name (fs_list fs)) /\ ~ In x_id (map f_name (fs_list fs))
      /\ forall f, In f (fs_list fs) -> dec_fits bt (f_ty f) = true.
Proof.
  assert (Hk : exists kind, gen_decode_fields bt fs =
      DLoop (Loop (map gen_var (fs_list fs)) x_id (ECall RDecodeId [EVar x_r]) (map (gen_arm bt) (fs_list fs))
                  (ECall RDecodeSkip [EVar x_r; EEncodingOf (EVar x_id)]) (map (gen_assign kind) (fs_list fs)))).
  { unfold gen_decode_fields. destruct (fs_kind fs) as [| |]; [eexists; reflexivity|eexists; reflexivity|contradiction]. }
  destruct Hk as [kind ->]. cbn [dbody_ok d_vars d_id d_next d_arms d_skip d_build]. rewrite (declared_ctx _ ts _ HF).
  set (g1 := rev (decls (fs_list fs) ts) ++ [(x_r, RReaderT)]).
  assert (Hfst : map fst (rev (decls (fs_list fs) ts)) = rev (map f_name (fs_list fs))) by (rewrite map_rev, (proj1 (decls_spec _ _ HF)); reflexivity).
  assert (Hg1 : forall f r, In f (fs_list fs) -> rtf f = Some r -> find_var (f_name f) g1 = Some (match f_ty f with TOption _ => r | _ => ROption r end)).
  { intros f r Hin Hr. exact (find_decl _ ts f r _ HF Hnd Hin Hr). }
  rewrite (built_types kind (fs_list fs) ts g1 HF Hg1), list_eqb_map_refl, andb_true_r.
  destruct (In_dec (list_eq_dec N.eq_dec) x_r (map f_name (fs_list fs))) as [Hin|Hr].
  { assert (Hrd : is_reader g1 (EVar x_r) = false).
    { cbn [is_reader]. apply in_map_iff in Hin as (f & Ef & Hin). rewrite <- Ef. destruct (Hex f Hin) as [r Hr]. rewrite (Hg1 f r Hin Hr).
      unfold rtf in Hr. destruct (f_ty f); try reflexivity. cbn [rust_type] in Hr. destruct (rust_type bt t); [|discriminate]. injection Hr as <-. reflexivity. }
    rewrite Hrd. split; [discriminate|intros [H _]; contradiction]. }
  assert (Hrd1 : reads g1). { unfold reads, g1. rewrite find_var_app; [apply find_var_eq|]. rewrite Hfst, <- in_rev. exact Hr. }
  assert (Hrd2 : reads ((x_id, RFieldIdT) :: g1)) by (unfold reads; rewrite find_var_neq by discriminate; exact Hrd1).
  rewrite (is_reader_ok _ Hrd1), (is_reader_ok _ Hrd2), find_var_eq, !andb_true_r. cbn [andb].
  rewrite forallb_in_iff. split.
  - intros H. assert (Hid : ~ In x_id (map f_name (fs_list fs))).
    { intros Hin. apply in_map_iff in Hin as (f & Ef & Hin). specialize (H (gen_arm bt f) (in_map _ _ _ Hin)).
      unfold gen_arm in H. rewrite Ef, find_var_eq in H. discriminate. }
    split; [exact Hr|]. split; [exact Hid|]. intros f Hf. destruct (Hex f Hf) as [r Hrt].
    rewrite <- (dec_arm_typed f r ((x_id, RFieldIdT) :: g1) (Hng f Hf) Hrt Hrd2); [exact (H (gen_arm bt f) (in_map _ _ _ Hf))|].
    rewrite find_var_neq; [exact (Hg1 f r Hf Hrt)|]. intros E. apply Hid. rewrite <- E. apply in_map. exact Hf.
  - intros (_ & Hid & H) a Ha. apply in_map_iff in Ha as (f & <- & Hf). destruct (Hex f Hf) as [r Hrt].
    rewrite <- (H f Hf). apply (dec_arm_typed f r ((x_id, RFieldIdT) :: g1) (Hng f Hf) Hrt Hrd2).
    rewrite find_var_neq; [exact (Hg1 f r Hf Hrt)|]. intros E. apply Hid. rewrite <- E. apply in_map. exact Hf.
Qed.
End Fields.

(** One struct or variant: with ([Some id]) or without a variant number in front. *)
Definition size_of (vid : option N) (fs : fields) : expr :=
  match vid with None => gen_size_struct bt fs | Some n => gen_size_variant bt (Variant n fs) end.
Definition encode_of (vid : option N) (fs : fields) : expr :=
  match vid with None => gen_encode_struct bt fs | Some n => gen_encode_variant bt (Variant n fs) end.

Definition ok_size (vid : option N) (fs : fields) : bool :=
  match bound bt (Arm (names_of_fields fs) (size_of vid fs)) fs with
  | Some g => has_type (tc bt size_bounds g (size_of vid fs)) RUsize
  | None => false
  end.
Definition ok_encode (vid : option N) (fs : fields) : bool :=
  match bound bt (Arm (names_of_fields fs) (encode_of vid fs)) fs with
  | Some g => has_type (tc bt encode_bounds (g ++ [(x_w, RWriterT)]) (encode_of vid fs)) RUnit
  | None => false
  end.
Definition ok_decode (fs : fields) : bool :=
  match field_types bt fs with
  | Some ts => dbody_ok bt decode_bounds (gen_decode_fields bt fs) [(x_r, RReaderT)] ts
  | None => false
  end.

Lemma derive_hash : derive_bounds TrPartialEq TrHash = false. Proof. reflexivity. Qed.

Lemma derives_iff fs ts : fs_kind fs <> KUnit -> all_opt rtf (fs_list fs) = Some ts -> no_gen_fields fs ->
  (derives_ok bt fs = true -> NoDup (map f_name (fs_list fs)))
  /\ (NoDup (map f_name (fs_list fs)) -> (forall f, In f (fs_list fs) -> fits bt 0 (f_ty f) = true) -> derives_ok bt fs = true).
Proof.
  intros Hk Hts Hng. unfold derives_ok. fold nodupb.
  assert (Hft : field_types bt fs = Some ts) by (unfold field_types; destruct (fs_kind fs); [exact Hts|exact Hts|contradiction]).
  assert (Hn : names_of_fields fs = map f_name (fs_list fs)) by (unfold names_of_fields; destruct (fs_kind fs); [reflexivity|reflexivity|contradiction]).
  rewrite Hft, Hn. split.
  - intros H. apply andb_true_iff in H as [_ H]. apply nodupb_iff. exact H.
  - intros Hnd Hfit. apply andb_true_iff. split; [|apply nodupb_iff; exact Hnd].
    apply all_opt_forall2 in Hts.
    assert (Hin : forall r, In r ts -> exists f, In f (fs_list fs) /\ rtf f = Some r).
    { clear - Hts. induction Hts as [|a b l m Hab HF IH]; intros r Hr; [destruct Hr|].
      destruct Hr as [->|Hr]; [exists a; split; [left; reflexivity|exact Hab]|]. destruct (IH r Hr) as (f & Hf & E). exists f. split; [right; exact Hf|exact E]. }
    cbn [forallb]. rewrite !andb_true_iff. repeat split; apply forallb_forall; intros r Hr; destruct (Hin r Hr) as (f & Hf & E); unfold rtf in E.
    + exact (common_ok bt (derive_bounds TrClone) TrClone (f_ty f) (or_introl eq_refl) eq_refl r E).
    + exact (common_ok bt (derive_bounds TrDebug) TrDebug (f_ty f) (or_intror eq_refl) eq_refl r E).
    + exact (fits_eq bt (f_ty f) (Hng f Hf) 0 (Hfit f Hf) (derive_bounds TrPartialEq) r eq_refl eq_refl E).
Qed.

Theorem body_iff vid fs : no_gen_fields fs ->
  derives_ok bt fs = true /\ ok_size vid fs = true /\ ok_encode vid fs = true /\ ok_decode fs = true <-> fits_fields bt fs.
Proof.
  intros Hng. unfold fits_fields.
  destruct (fs_kind fs) eqn:Hk.
  3: { split; [intros _ H; contradiction|]. intros _.
       assert (Hft : field_types bt fs = Some []) by (unfold field_types; rewrite Hk; reflexivity).
       assert (Hn : names_of_fields fs = []) by (unfold names_of_fields; rewrite Hk; reflexivity).
       repeat split.
       - unfold derives_ok. rewrite Hft, Hn. reflexivity.
       - unfold ok_size, bound. rewrite Hft. cbn [option_map a_names map combine]. rewrite Hn.
         destruct vid; cbn [size_of]; unfold gen_size_struct, gen_size_variant; cbn [v_fields]; rewrite Hk; reflexivity.
       - unfold ok_encode, bound. rewrite Hft. cbn [option_map a_names map combine]. rewrite Hn.
         destruct vid; cbn [encode_of]; unfold gen_encode_struct, gen_encode_variant, gen_encode_fields; cbn [v_fields]; rewrite Hk; reflexivity.
       - unfold ok_decode, gen_decode_fields. rewrite Hft, Hk. reflexivity. }
  all: assert (Hk' : fs_kind fs <> KUnit) by (rewrite Hk; discriminate).
  all: assert (Hn : names_of_fields fs = map f_name (fs_list fs)) by (unfold names_of_fields; rewrite Hk; reflexivity).
  all: assert (Hft : field_types bt fs = all_opt rtf (fs_list fs)) by (unfold field_types; rewrite Hk; reflexivity).
  all: destruct (all_opt rtf (fs_list fs)) as [ts|] eqn:Hts.
  2,4: split; [intros [H _]; unfold derives_ok in H; rewrite Hft in H; discriminate|];
       intros H; destruct (H ltac:(discriminate)) as (_ & _ & Hf);
       destruct (all_opt_exists rtf (fs_list fs)) as [m Hm]; [intros f Hin; exact (fits_type bt (f_ty f) 0 (Hf f Hin))|congruence].
  all: destruct (derives_iff fs ts Hk' Hts Hng) as [Hd1 Hd2].
  all: assert (Hall : NoDup (map f_name (fs_list fs)) ->
     (ok_size vid fs = true <-> forall f, In f (fs_list fs) -> size_fits bt 0 (f_ty f) = true)
     /\ (ok_encode vid fs = true <-> ~ In x_w (map f_name (fs_list fs)) /\ forall f, In f (fs_list fs) -> fld_enc f = true)
     /\ (ok_decode fs = true <-> ~ In x_r (map f_name (fs_list fs)) /\ ~ In x_id (map f_name (fs_list fs))
           /\ forall f, In f (fs_list fs) -> dec_fits bt (f_ty f) = true)).
  1,3: (intros Hnd; split; [|split];
    [ unfold ok_size, bound; rewrite Hft; cbn [option_map a_names]; rewrite Hn;
      destruct vid as [n|]; cbn [size_of]; unfold gen_size_struct, gen_size_variant; cbn [v_fields v_id]; rewrite Hk;
      [apply (size_sum_typed' fs ts Hts Hng Hnd); reflexivity|apply (size_sum_typed fs ts Hts Hng Hnd); reflexivity]
    | unfold ok_encode, bound; rewrite Hft; cbn [option_map a_names]; rewrite Hn;
      destruct vid as [n|]; cbn [encode_of]; unfold gen_encode_struct, gen_encode_variant; cbn [v_fields v_id];
      [apply (encode_typed_iff fs ts Hk' Hts Hng Hnd [ECall REncodeVariantId [EVar x_w; EVariantId n]]);
       intros g e [<-|[]]; cbn [tc]; apply some_guard
      |apply (encode_typed_iff fs ts Hk' Hts Hng Hnd []); intros g e []]
    | unfold ok_decode; rewrite Hft; apply (decode_typed_iff fs ts Hk' Hts Hng Hnd) ]).
  all: apply all_opt_forall2 in Hts.
  all: assert (Hfit : forall f, In f (fs_list fs) -> fits bt 0 (f_ty f) = true <->
          size_fits bt 0 (f_ty f) = true /\ fld_enc f = true /\ dec_fits bt (f_ty f) = true)
        by (intros f Hf; destruct (forall2_left rtf _ _ Hts f Hf) as [r Hr]; exact (fits_field_iff f r (Hng f Hf) Hr)).
  all: split;
    [ intros (Hd & Hs & He & Hde) _; specialize (Hd1 Hd); destruct (Hall Hd1) as (Is & Ie & Id);
      pose proof (proj1 Is Hs) as Hs'; destruct (proj1 Ie He) as [Hw He']; destruct (proj1 Id Hde) as (Hr & Hi & Hde');
      split; [exact Hd1|]; split;
      [ intros f Hf [E|[E|[E|[]]]]; [apply Hw|apply Hr|apply Hi]; rewrite E; apply in_map; exact Hf
      | intros f Hf; apply (Hfit f Hf); auto ]
    | intros H; destruct (H ltac:(discriminate)) as (Hnd & Hres & Hf); destruct (Hall Hnd) as (Is & Ie & Id);
      assert (Hx : forall x, In x reserved -> ~ In x (map f_name (fs_list fs)))
        by (intros x Hx Hin; apply in_map_iff in Hin as (f & <- & Hin); exact (Hres f Hin Hx));
      split; [exact (Hd2 Hnd Hf)|]; split; [apply Is; intros f Hin; apply (Hfit f Hin); exact (Hf f Hin)|];
      split; [apply Ie; split; [apply Hx; left; reflexivity|intros f Hin; apply (Hfit f Hin); exact (Hf f Hin)]|];
      apply Id; split; [apply Hx; right; left; reflexivity|]; split; [apply Hx; right; right; left; reflexivity|];
      intros f Hin; apply (Hfit f Hin); exact (Hf f Hin) ].
Qed.

Lemma forall2b_map {A B C} (p : B -> C -> bool) (f : A -> B) (g : A -> C) l :
  forall2b p (map f l) (map g l) = forallb (fun a => p (f a) (g a)) l.
Proof. induction l as [|a l IH]; [reflexivity|]. cbn [map forall2b forallb]. rewrite IH. reflexivity. Qed.
Lemma forallb_map {A B} (p : B -> bool) (f : A -> B) l : forallb p (map f l) = forallb (fun a => p (f a)) l.
Proof. induction l as [|a l IH]; [reflexivity|]. cbn [map forallb]. rewrite IH. reflexivity. Qed.

(** The generated code of a definition type checks exactly if the definition fits. *)
Theorem type_checks_iff d : no_gen_def d -> type_checks bt d = true <-> fits_def bt d.
Proof.
  intros Hng. unfold type_checks. rewrite !andb_true_iff. destruct d as [fs|vs].
  - specialize (Hng fs (or_introl eq_refl)). cbn [fits_def bodies forallb]. rewrite <- (body_iff None fs Hng).
    unfold size_fn_ok, encode_fn_ok, decode_fn_ok. cbn [gen_size_def gen_encode_def gen_decode_def bodies forall2b a_body].
    unfold ok_size, ok_encode, ok_decode. cbn [size_of encode_of]. rewrite !andb_true_r. tauto.
  - cbn [fits_def]. unfold size_fn_ok, encode_fn_ok, decode_fn_ok. cbn [gen_size_def gen_encode_def gen_decode_def bodies].
    rewrite map_map, !forall2b_map, forallb_map, !forallb_forall.
    cbn [a_body is_reader snd]. rewrite find_var_eq. cbn [andb]. rewrite forallb_forall.
    assert (Hv : forall v, In v vs -> derives_ok bt (v_fields v) = true /\ ok_size (Some (v_id v)) (v_fields v) = true
        /\ ok_encode (Some (v_id v)) (v_fields v) = true /\ ok_decode (v_fields v) = true <-> fits_fields bt (v_fields v)).
    { intros v Hin. apply body_iff. apply Hng. cbn [bodies]. apply in_map. exact Hin. }
    unfold ok_size, ok_encode, ok_decode in Hv. cbn [size_of encode_of] in Hv.
    assert (Heta : forall v, Variant (v_id v) (v_fields v) = v) by (intros []; reflexivity).
    split.
    + intros [[[H1 H2] H3] H4] v Hin. apply (Hv v Hin). rewrite Heta. auto.
    + intros H. assert (Hv' := fun v Hin => proj2 (Hv v Hin) (H v Hin)). repeat split; intros v Hin; specialize (Hv' v Hin);
        rewrite ?Heta in Hv'; apply Hv'.
Qed.
End Items.
