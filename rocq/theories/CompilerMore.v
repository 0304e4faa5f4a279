(** Validation of whole schemas, and code generation after it (C28-C34). *)
From Verif Require Import Base Syntax Compiler CompilerSpec CompilerClaims CompilerProofs.
Local Open Scope N_scope.

Section Defs.
Context {F : Type}.
Implicit Types (d : pdef F) (ds : list (pdef F)) (s : pschema F).

Lemma names_of_introduced ds : names_of ds = introduced ds.
Proof.
  unfold introduced. induction ds as [|d ds IH]; [reflexivity|]. cbn [names_of flat_map]. rewrite <- IH.
  destruct d as [| | | | |segs el]; try reflexivity. cbn [def_name introduces]. destruct el as [n|]; [reflexivity|].
  destruct segs as [|x segs]; [reflexivity|].
  destruct (@exists_last _ (x :: segs) ltac:(discriminate)) as (l & y & ->). rewrite rev_unit, last_last.
  destruct l; reflexivity.
Qed.

(** The conditions of one definition. *)
Definition own_valid (chk : bool) d : Prop :=
  (forall names, In names (name_scopes d) -> NoDup names) /\
  (forall decl ids, In decl (id_scopes d) -> assigns decl ids ->
     NoDup ids /\ (chk = true -> ~ In (2 ^ 32 - 1) ids)) /\
  (NoDup (parameters d) /\ forall n, In n (parameters d) -> used_in outside_non_zero n (field_lists d)) /\
  (forall t, In t (mentioned d) -> tuples_ok outside_non_zero t).

Lemma generics_ok pick g fss : validate_generics pick g fss = COk tt <->
  (NoDup (match g with Some g => p_values g | None => [] end) /\
   forall n, In n (match g with Some g => p_values g | None => [] end) -> used_in outside_non_zero n fss).
Proof.
  destruct g as [g|]; [apply validate_generics_ok|]. cbn. split; [intros _; split; [constructor|intros n []]|reflexivity].
Qed.

Lemma field_ids_valid chk fs : u32_ids (field_decls fs) ->
  (validate_field_ids chk fs = COk tt <->
   forall ids, assigns (field_decls fs) ids -> NoDup ids /\ (chk = true -> ~ In (2 ^ 32 - 1) ids)).
Proof.
  intros Hu. split.
  - intros H ids Ha. apply (validate_field_ids_ok chk fs ids Hu Ha). exact H.
  - intros H. apply (validate_field_ids_ok chk fs _ Hu (assigns_ids_from _)). apply H, assigns_ids_from.
Qed.

Lemma own_ok_valid pick chk d : (forall decl, In decl (id_scopes d) -> u32_ids decl) ->
  (own_ok pick chk d <-> own_valid chk d).
Proof.
  intros Hu. unfold own_valid.
  destruct d as [c n ds|c a n g fs|c a n g vs|c n g t|c n t v|segs e];
    cbn [own_ok name_scopes id_scopes parameters mentioned field_lists map app flat_map] in *.
  - rewrite validate_names_in_module_ok, names_of_introduced. split.
    + intros H. split; [intros names [<-|[]]; exact H|]. split; [intros decl ids []|].
      split; [split; [constructor|intros m []]|intros t []].
    + intros (H & _). apply H. left. reflexivity.
  - rewrite (field_ids_valid chk fs) by (apply Hu; left; reflexivity).
    rewrite validate_field_names_ok, generics_ok, validate_field_tuples_ok, app_nil_r.
    replace (match g with Some g0 => p_values g0 | None => [] end) with (match g with Some g0 => p_values g0 | None => [] end) by reflexivity.
    split.
    + intros (H1 & H2 & H3 & H4). split; [intros names [<-|[]]; exact H2|].
      split; [intros decl ids [<-|[]]; apply H1|]. split; [exact H3|exact H4].
    + intros (H1 & H2 & H3 & H4). split; [intros ids; apply H2; left; reflexivity|].
      split; [apply H1; left; reflexivity|]. split; [exact H3|exact H4].
  - assert (Huv : u32_ids (variant_decls vs)) by (apply Hu; left; reflexivity).
    assert (Huf : forall v, In v (p_values vs) -> u32_ids (field_decls (pv_fields v))).
    { intros v Hv. apply Hu. right. apply in_map, in_map. exact Hv. }
    rewrite validate_enum_names_ok, generics_ok.
    assert (Hids : validate_enum_ids chk vs = COk tt <->
       (forall decl ids, In decl (variant_decls vs :: map field_decls (map pv_fields (p_values vs))) -> assigns decl ids ->
          NoDup ids /\ (chk = true -> ~ In (2 ^ 32 - 1) ids))).
    { rewrite (validate_enum_ids_ok chk vs _ Huv (assigns_ids_from _)). split.
      - intros (H1 & H2 & H3) decl ids [<-|Hin] Ha.
        + rewrite (assigns_unique _ _ _ Ha (assigns_ids_from _)). auto.
        + apply in_map_iff in Hin as (fs & <- & Hin). apply in_map_iff in Hin as (v & <- & Hv).
          apply (field_ids_valid chk _ (Huf v Hv)); [apply H3; exact Hv|exact Ha].
      - intros H. destruct (H (variant_decls vs) _ (or_introl eq_refl) (assigns_ids_from _)) as [H1 H2].
        split; [exact H1|]. split; [exact H2|]. intros v Hv. apply (field_ids_valid chk _ (Huf v Hv)).
        intros ids. apply H. right. apply in_map, in_map. exact Hv. }
    rewrite Hids.
    assert (Hnames : (NoDup (map pv_name (p_values vs)) /\ (forall v, In v (p_values vs) -> NoDup (field_names (pv_fields v)))) <->
       (forall names, In names (map pv_name (p_values vs) :: map field_names (map pv_fields (p_values vs))) -> NoDup names)).
    { split.
      - intros [H1 H2] names [<-|Hin]; [exact H1|]. rewrite map_map in Hin. apply in_map_iff in Hin as (v & <- & Hv). auto.
      - intros H. split; [apply H; left; reflexivity|]. intros v Hv. apply H. right. rewrite map_map.
        apply (in_map (fun x => field_names (pv_fields x))). exact Hv. }
    assert (Htup : (forall v, In v (p_values vs) -> validate_field_tuples (pv_fields v) = COk tt) <->
       (forall t, In t (flat_map field_types (map pv_fields (p_values vs))) -> tuples_ok outside_non_zero t)).
    { split.
      - intros H t Ht. apply in_flat_map in Ht as (fs & Hfs & Ht). apply in_map_iff in Hfs as (v & <- & Hv).
        apply (proj1 (validate_field_tuples_ok (pv_fields v)) (H v Hv)). exact Ht.
      - intros H v Hv. apply validate_field_tuples_ok. intros t Ht. apply H. apply in_flat_map. exists (pv_fields v).
        split; [apply in_map; exact Hv|exact Ht]. }
    rewrite Htup. rewrite Hnames. tauto.
  - rewrite validate_tuple_size_ok. split.
    + intros H. split; [intros names []|]. split; [intros decl ids []|].
      split; [split; [constructor|intros m []]|intros x [<-|[]]; exact H].
    + intros (_ & _ & _ & H). apply H. left. reflexivity.
  - rewrite validate_tuple_size_ok. split.
    + intros H. split; [intros names []|]. split; [intros decl ids []|].
      split; [split; [constructor|intros m []]|intros x [<-|[]]; exact H].
    + intros (_ & _ & _ & H). apply H. left. reflexivity.
  - split; [intros _|intros _; exact I].
    split; [intros names []|]. split; [intros decl ids []|].
    split; [split; [constructor|intros m []]|intros t []].
Qed.

Theorem validate_schema_exact pick chk s : u32_defs (ps_defs s) ->
  (validate_schema pick chk s = COk tt <-> valid chk (ps_defs s)).
Proof.
  intros Hu. rewrite validate_schema_ok, names_of_introduced. unfold valid.
  split; intros [H1 H2]; (split; [exact H1|]); intros d Hd;
    (apply (own_ok_valid pick chk d); [intros decl; apply Hu; exact Hd|apply H2; exact Hd]).
Qed.

(** * Reported errors *)
Lemma cbind_err {E B} (m : cres E unit) (f : unit -> cres E B) e :
  cbind m f = CErr e -> m = CErr e \/ f tt = CErr e.
Proof. destruct m as [[]|x|]; cbn; intros H; [right; exact H|left; congruence|discriminate]. Qed.
Lemma cbind_panic {E B} (m : cres E unit) (f : unit -> cres E B) :
  cbind m f = CPanic -> m = CPanic \/ f tt = CPanic.
Proof. destruct m as [[]|x|]; cbn; intros H; [right; exact H|discriminate|left; reflexivity]. Qed.

Lemma bad_tuple_some t a : bad_tuple t = Some a -> exists ts, part outside_non_zero (PTuple ts) t
  /\ match a with AmEmpty => p_len ts = 0 | AmSingle => p_len ts = 1 | AmTooLarge => 12 < p_len ts end%nat.
Proof.
  set (Q := fun ts : punct pty => match a with AmEmpty => p_len ts = 0 | AmSingle => p_len ts = 1 | AmTooLarge => 12 < p_len ts end%nat).
  assert (Hstep : forall c t, outside_non_zero t = true -> In c (children t) ->
     (exists ts, part outside_non_zero (PTuple ts) c /\ Q ts) -> exists ts, part outside_non_zero (PTuple ts) t /\ Q ts).
  { intros c u Hgo Hc (ts & Hp & Hq). exists ts. split; [apply part_child with c; assumption|exact Hq]. }
  assert (Hfirst : forall l, first_some bad_tuple l = Some a -> exists c, In c l /\ bad_tuple c = Some a).
  { induction l as [|x l IH]; [discriminate|]. unfold first_some. cbn [fold_right]. fold (first_some bad_tuple l).
    destruct (bad_tuple x) as [b|] eqn:E; cbn [or_else].
    - intros H. injection H as ->. exists x. split; [left; reflexivity|exact E].
    - intros H. destruct (IH H) as (c & Hc & He). exists c. split; [right; exact Hc|exact He]. }
  assert (Hval : forall ts : punct pty, or_else (first_some bad_tuple (p_init ts)) (bad_tuple (p_last ts)) = Some a ->
     exists c, In c (p_values ts) /\ bad_tuple c = Some a).
  { intros [l x b]. cbn [p_init p_last]. destruct (first_some bad_tuple l) as [y|] eqn:E; cbn [or_else]; intros H.
    - assert (y = a) by congruence. subst y. destruct (Hfirst l E) as (c & Hc & He). exists c. split; [apply in_or_app; left; exact Hc|exact He].
    - exists x. split; [apply in_or_app; right; left; reflexivity|exact H]. }
  change (bad_tuple t = Some a -> exists ts, part outside_non_zero (PTuple ts) t /\ Q ts).
  induction t as [p|t IH|k v IHk IHv|t IH|t IH|t IH|ts IH|t n IH|path name|path name ts IH] using pty_ind2; intros H.
  - discriminate.
  - apply (Hstep t); [reflexivity|left; reflexivity|apply IH, H].
  - cbn [bad_tuple] in H. destruct (bad_tuple k) as [b|]; cbn [or_else] in H.
    + apply (Hstep k); [reflexivity|left; reflexivity|apply IHk, H].
    + apply (Hstep v); [reflexivity|right; left; reflexivity|apply IHv, H].
  - apply (Hstep t); [reflexivity|left; reflexivity|apply IH, H].
  - apply (Hstep t); [reflexivity|left; reflexivity|apply IH, H].
  - discriminate.
  - replace (bad_tuple (PTuple ts)) with (or_else (tuple_amount (p_len ts)) (or_else (first_some bad_tuple (p_init ts)) (bad_tuple (p_last ts))))
      in H by (destruct ts; reflexivity).
    destruct (tuple_amount (p_len ts)) as [b|] eqn:E; cbn [or_else] in H.
    + assert (E' : tuple_amount (p_len ts) = Some a) by congruence. exists ts. split; [constructor|].
      clear -E'. unfold Q, tuple_amount in *.
      destruct (p_len ts) as [|[|m]]; [inversion E'; subst a; reflexivity|inversion E'; subst a; reflexivity|].
      destruct (Nat.leb_spec (S (S m)) 12); [discriminate|]. inversion E'. assumption.
    + destruct (Hval ts H) as (c & Hc & He). apply (Hstep c); [reflexivity|exact Hc|apply IH; assumption].
  - apply (Hstep t); [reflexivity|left; reflexivity|apply IH, H].
  - discriminate.
  - replace (bad_tuple (PExternal path name (Some ts))) with (or_else (first_some bad_tuple (p_init ts)) (bad_tuple (p_last ts)))
      in H by (destruct ts; reflexivity).
    destruct (Hval ts H) as (c & Hc & He). apply (Hstep c); [reflexivity|exact Hc|apply IH; assumption].
Qed.

Lemma validate_tuple_size_err t e : validate_tuple_size t = CErr e -> exists a ts, e = TupleSize a
  /\ part outside_non_zero (PTuple ts) t
  /\ match a with AmEmpty => p_len ts = 0 | AmSingle => p_len ts = 1 | AmTooLarge => 12 < p_len ts end%nat.
Proof.
  unfold validate_tuple_size. destruct (bad_tuple t) as [a|] eqn:E; [|discriminate]. intros H. injection H as <-.
  destruct (bad_tuple_some t a E) as (ts & Hts). exists a, ts. split; [reflexivity|exact Hts].
Qed.

Lemma field_ids_blame chk fs e d : u32_ids (field_decls fs) -> In fs (field_lists d) ->
  validate_field_ids chk fs = CErr e -> blames d e.
Proof.
  intros Hu Hin He. destruct (validate_field_ids_err chk fs _ e Hu (assigns_ids_from _) He)
    as (j & k & i & Hjk & Hj & Hk & _ & H).
  destruct fs as [l|l|]; [| |contradiction].
  - destruct H as (fj & fk & H1 & H2 & ->). exists l, (ids_from 1 (field_decls (FNamed l))), j, k, fj, fk.
    repeat split; try assumption; apply assigns_ids_from.
  - subst e. exists l, (ids_from 1 (field_decls (FUnnamed l))), j, k.
    repeat split; try assumption; apply assigns_ids_from.
Qed.

Lemma each_tuples_err fs e : validate_field_tuples fs = CErr e -> exists t, In t (field_types fs) /\ validate_tuple_size t = CErr e.
Proof. apply each_err. Qed.

Lemma generics_blame pick g fss e : validate_generics pick g fss = CErr e ->
  let ps := match g with Some g => p_values g | None => [] end in
  (exists n, e = DuplicateGenericName n /\ twice n ps)
  \/ (exists n, e = UnusedGeneric n /\ In n ps /\ ~ used_in outside_non_zero n fss).
Proof.
  intros H. destruct (validate_generics_err pick g fss e H) as (g0 & -> & H'). exact H'.
Qed.

(** Every definition of [d] itself or below it. *)
Definition below x d : Prop := x = d \/ exists c n sub, d = PModule c n sub /\ within x sub.

Lemma validate_definition_err pick chk d e :
  (forall x decl, below x d -> In decl (id_scopes x) -> u32_ids decl) ->
  validate_definition pick chk d = CErr e -> exists x, below x d /\ blames x e.
Proof.
  induction d as [c n ds IH|c a n g fs|c a n g vs|c n g t|c n t v|sg el] using pdef_ind2; intros Hu He; cbn [validate_definition] in He.
  - apply cbind_err in He as [He|He].
    + apply validate_names_in_module_err in He as (m & -> & Ht). rewrite names_of_introduced in Ht.
      exists (PModule c n ds). split; [left; reflexivity|exact Ht].
    + apply each_err in He as (d & Hd & He). apply (IH d Hd) in He as (x & Hx & Hb).
      * exists x. split; [|exact Hb]. right. exists c, n, ds. split; [reflexivity|].
        destruct Hx as [->|(c' & n' & sub & -> & Hw)]; [constructor; exact Hd|eapply within_module; eassumption].
      * intros x decl Hx. apply Hu. right. exists c, n, ds. split; [reflexivity|].
        destruct Hx as [->|(c' & n' & sub & -> & Hw)]; [constructor; exact Hd|eapply within_module; eassumption].
  - exists (PStruct c a n g fs). split; [left; reflexivity|].
    apply cbind_err in He as [He|He]; [apply (field_ids_blame chk fs); [|left; reflexivity|exact He]|].
    { apply (Hu (PStruct c a n g fs)); left; reflexivity. }
    apply cbind_err in He as [He|He].
    { apply validate_field_names_err in He as (m & -> & Ht). exists fs. split; [left; reflexivity|exact Ht]. }
    apply cbind_err in He as [He|He].
    { apply generics_blame in He as [(m & -> & H)|(m & -> & H)]; exact H. }
    apply each_tuples_err in He as (t & Ht & He). apply validate_tuple_size_err in He as (b & ts & -> & H).
    exists t, ts. split; [|exact H]. cbn [mentioned field_lists flat_map]. rewrite app_nil_r. exact Ht.
  - exists (PEnum c a n g vs). split; [left; reflexivity|].
    assert (Huv : u32_ids (variant_decls vs)) by (apply (Hu (PEnum c a n g vs)); left; reflexivity).
    apply cbind_err in He as [He|He].
    { apply (validate_enum_ids_err chk vs _ e Huv (assigns_ids_from _)) in He as [(v & Hv & He)|(j & k & i & vj & vk & Hjk & H1 & H2 & H3 & H4 & _ & ->)].
      - apply (field_ids_blame chk (pv_fields v)); [|cbn [field_lists]; apply in_map; exact Hv|exact He].
        apply (Hu (PEnum c a n g vs)); [left; reflexivity|]. right. cbn [field_lists]. apply in_map, in_map. exact Hv.
      - exists (ids_from 1 (variant_decls vs)), j, k, vj, vk. repeat split; try assumption; apply assigns_ids_from. }
    apply cbind_err in He as [He|He].
    { apply validate_enum_names_err in He as [(m & -> & Ht)|(m & v & -> & Hv & Ht)]; [exact Ht|].
      exists (pv_fields v). split; [cbn [field_lists]; apply in_map; exact Hv|exact Ht]. }
    apply cbind_err in He as [He|He].
    { apply generics_blame in He as [(m & -> & H)|(m & -> & H)]; exact H. }
    apply each_err in He as (v & Hv & He). apply each_tuples_err in He as (t & Ht & He).
    apply validate_tuple_size_err in He as (b & ts & -> & H).
    exists t, ts. split; [|exact H]. cbn [mentioned field_lists]. apply in_flat_map. exists (pv_fields v).
    split; [apply in_map; exact Hv|exact Ht].
  - apply validate_tuple_size_err in He as (b & ts & -> & H). exists (PAlias c n g t).
    split; [left; reflexivity|]. exists t, ts. split; [left; reflexivity|exact H].
  - apply validate_tuple_size_err in He as (b & ts & -> & H). exists (PConst c n t v).
    split; [left; reflexivity|]. exists t, ts. split; [left; reflexivity|exact H].
  - discriminate.
Qed.

Theorem validate_schema_err pick chk s e : u32_defs (ps_defs s) -> validate_schema pick chk s = CErr e ->
  (exists n, e = DuplicateNameInModule n /\ twice n (introduced (ps_defs s)))
  \/ exists d, within d (ps_defs s) /\ blames d e.
Proof.
  intros Hu He. unfold validate_schema in He. apply cbind_err in He as [He|He].
  - apply validate_names_in_module_err in He as (m & -> & Ht). rewrite names_of_introduced in Ht. left. eauto.
  - right. apply each_err in He as (d & Hd & He).
    assert (Hb : forall x, below x d -> within x (ps_defs s)).
    { intros x [->|(c' & n' & sub & -> & Hw)]; [constructor; exact Hd|eapply within_module; eassumption]. }
    apply validate_definition_err in He as (x & Hx & Hbl); [exists x; auto|].
    intros x decl Hx. apply Hu, Hb, Hx.
Qed.

(** * Panics *)
Lemma validate_field_names_panic fs : validate_field_names fs <> CPanic.
Proof. destruct fs; cbn; try discriminate. destruct (repeated [] _); discriminate. Qed.
Lemma validate_enum_names_panic vs : validate_enum_names vs <> CPanic.
Proof.
  unfold validate_enum_names. pose proof (variant_names_spec (p_values vs) []) as H.
  destruct (variant_names [] (p_values vs)); congruence.
Qed.
Lemma validate_field_tuples_panic fs : validate_field_tuples fs <> CPanic.
Proof. intros H. apply each_panic in H as (t & _ & H). exact (validate_tuple_size_panic t H). Qed.

Lemma validate_enum_ids_panic chk vs ids : u32_ids (variant_decls vs) -> assigns (variant_decls vs) ids ->
  validate_enum_ids chk vs = CPanic ->
  chk = true /\ (In (2 ^ 32 - 1) ids \/ exists v, In v (p_values vs) /\ validate_field_ids chk (pv_fields v) = CPanic).
Proof.
  intros Hu Ha. rewrite (assigns_unique _ _ _ Ha (assigns_ids_from _)). intros H.
  pose proof (variant_ids_spec chk (p_values vs) 1 [] eq_refl Hu) as S. cbn zeta in S.
  unfold validate_enum_ids in H. rewrite H in S. exact S.
Qed.

Lemma validate_definition_panic pick chk d :
  (forall x decl, below x d -> In decl (id_scopes x) -> u32_ids decl) ->
  validate_definition pick chk d = CPanic ->
  chk = true /\ exists x decl ids, below x d /\ In decl (id_scopes x) /\ assigns decl ids /\ In (2 ^ 32 - 1) ids.
Proof.
  assert (Hf : forall fs, u32_ids (field_decls fs) -> validate_field_ids chk fs = CPanic ->
     chk = true /\ In (2 ^ 32 - 1) (ids_from 1 (field_decls fs))).
  { intros fs Hu H. apply (validate_field_ids_panic chk fs _ Hu (assigns_ids_from _)) in H as (Hc & k & Hk & _).
    split; [exact Hc|eapply nth_error_In; exact Hk]. }
  induction d as [c n ds IH|c a n g fs|c a n g vs|c n g t|c n t v|sg el] using pdef_ind2; intros Hu He; cbn [validate_definition] in He.
  - apply cbind_panic in He as [He|He]; [destruct (validate_names_in_module_panic ds He)|].
    apply each_panic in He as (d & Hd & He).
    assert (Hb : forall x, below x d -> below x (PModule c n ds)).
    { intros x Hx. right. exists c, n, ds. split; [reflexivity|].
      destruct Hx as [->|(c' & n' & sub & -> & Hw)]; [constructor; exact Hd|eapply within_module; eassumption]. }
    apply (IH d Hd) in He as (Hc & x & decl & ids & Hx & H).
    + split; [exact Hc|]. exists x, decl, ids. split; [apply Hb; exact Hx|exact H].
    + intros x decl Hx. apply Hu, Hb, Hx.
  - apply cbind_panic in He as [He|He].
    { apply Hf in He as [Hc Hin]; [|apply (Hu (PStruct c a n g fs)); left; reflexivity].
      split; [exact Hc|]. exists (PStruct c a n g fs), (field_decls fs), (ids_from 1 (field_decls fs)).
      split; [left; reflexivity|]. split; [left; reflexivity|]. split; [apply assigns_ids_from|exact Hin]. }
    apply cbind_panic in He as [He|He]; [destruct (validate_field_names_panic fs He)|].
    apply cbind_panic in He as [He|He]; [destruct (validate_generics_panic pick g _ He)|].
    destruct (validate_field_tuples_panic fs He).
  - apply cbind_panic in He as [He|He].
    { apply (validate_enum_ids_panic chk vs (ids_from 1 (variant_decls vs))) in He as (Hc & [Hin|(v & Hv & He)]).
      - split; [exact Hc|]. exists (PEnum c a n g vs), (variant_decls vs), (ids_from 1 (variant_decls vs)).
        split; [left; reflexivity|]. split; [left; reflexivity|]. split; [apply assigns_ids_from|exact Hin].
      - assert (Hin : In (field_decls (pv_fields v)) (id_scopes (PEnum c a n g vs))).
        { right. cbn [field_lists]. apply in_map, in_map. exact Hv. }
        apply Hf in He as [_ Hmax]; [|apply (Hu (PEnum c a n g vs)); [left; reflexivity|exact Hin]].
        split; [exact Hc|]. exists (PEnum c a n g vs), (field_decls (pv_fields v)), (ids_from 1 (field_decls (pv_fields v))).
        split; [left; reflexivity|]. split; [exact Hin|]. split; [apply assigns_ids_from|exact Hmax].
      - apply (Hu (PEnum c a n g vs)); left; reflexivity.
      - apply assigns_ids_from. }
    apply cbind_panic in He as [He|He]; [destruct (validate_enum_names_panic vs He)|].
    apply cbind_panic in He as [He|He]; [destruct (validate_generics_panic pick g _ He)|].
    apply each_panic in He as (v & _ & He). destruct (validate_field_tuples_panic _ He).
  - destruct (validate_tuple_size_panic t He).
  - destruct (validate_tuple_size_panic t He).
  - discriminate.
Qed.

Theorem validate_schema_panic pick chk s : u32_defs (ps_defs s) -> validate_schema pick chk s = CPanic ->
  chk = true /\ exists d decl ids, within d (ps_defs s) /\ In decl (id_scopes d) /\ assigns decl ids /\ In (2 ^ 32 - 1) ids.
Proof.
  intros Hu He. unfold validate_schema in He. apply cbind_panic in He as [He|He].
  { destruct (validate_names_in_module_panic _ He). }
  apply each_panic in He as (d & Hd & He).
  assert (Hb : forall x, below x d -> within x (ps_defs s)).
  { intros x [->|(c' & n' & sub & -> & Hw)]; [constructor; exact Hd|eapply within_module; eassumption]. }
  apply validate_definition_panic in He as (Hc & x & decl & ids & Hx & H).
  - split; [exact Hc|]. exists x, decl, ids. split; [apply Hb, Hx|exact H].
  - intros x decl Hx. apply Hu, Hb, Hx.
Qed.
End Defs.
