(** Lemmas about type resolution (C35, C36). *)
From Verif Require Import Base Syntax Compiler CompilerSpec CompilerProofs Resolve ResolveSpec ResolveClaims.
Local Open Scope N_scope.

Section Defs.
Context {F : Type}.
Implicit Types (d : pdef F) (ds : list (pdef F)).

Definition tree_of (m : rmod F) ds : Prop := exists n p, m = module_tree n p ds.

(** * Hash map of submodules *)
Lemma get_insert n (l : list (str * rmod F)) e :
  get_mod n (insert_mod l e) = if str_eqb (fst e) n then Some (snd e) else get_mod n l.
Proof.
  unfold insert_mod. induction l as [|[k m] l IH]; cbn [filter app get_mod fst].
  - destruct e as [k m]. reflexivity.
  - destruct (str_eqb k (fst e)) eqn:E; cbn [negb].
    + rewrite IH. apply str_eqb_eq in E. subst k. destruct (str_eqb (fst e) n); reflexivity.
    + cbn [app get_mod]. rewrite IH. destruct (str_eqb k n) eqn:E2; [|reflexivity].
      apply str_eqb_eq in E2. subst k. destruct (str_eqb (fst e) n) eqn:E3; [|reflexivity].
      apply str_eqb_eq in E3. subst n. rewrite str_eqb_refl in E. discriminate.
Qed.
Lemma in_insert x (l : list (str * rmod F)) e : In x (insert_mod l e) <-> (In x l /\ fst x <> fst e) \/ x = e.
Proof.
  unfold insert_mod. rewrite in_app_iff, filter_In, negb_true_iff. cbn [In].
  assert (H : str_eqb (fst x) (fst e) = false <-> fst x <> fst e).
  { rewrite <- (str_eqb_eq (fst x)). destruct (str_eqb (fst x) (fst e)); split; congruence. }
  rewrite H. split; intros [X|X]; auto. destruct X as [X|[]]; auto.
Qed.

Definition step (acc : list (str * rmod F)) (o : option (str * rmod F)) :=
  match o with Some e => insert_mod acc e | None => acc end.

Lemma module_of_some p d e : module_of p d = Some e ->
  exists c n sub, d = PModule c n sub /\ e = (n, module_tree n p sub).
Proof. destruct d; cbn; try discriminate. intros H. injection H as <-. exists c, name, defs. split; reflexivity. Qed.

Lemma get_fold_none p n ds : no_module n ds -> forall acc,
  get_mod n (fold_left step (map (module_of p) ds) acc) = get_mod n acc.
Proof.
  induction ds as [|d ds IH]; intros Hno acc; cbn [map fold_left]; [reflexivity|]. rewrite IH.
  - destruct (module_of p d) as [e|] eqn:E; cbn [step]; [|reflexivity].
    apply module_of_some in E as (c & m & sub & -> & ->). rewrite get_insert. cbn [fst].
    destruct (str_eqb m n) eqn:E2; [|reflexivity]. apply str_eqb_eq in E2. subst m.
    destruct (Hno c sub (or_introl eq_refl)).
  - intros c sub Hin. apply (Hno c sub). right. exact Hin.
Qed.
Lemma introduced_cons d ds : introduced (d :: ds) = introduces d ++ introduced ds.
Proof. reflexivity. Qed.
Lemma in_introduced d ds n : In d ds -> In n (introduces d) -> In n (introduced ds).
Proof. intros H1 H2. apply in_flat_map. exists d. auto. Qed.
Lemma NoDup_app_l {A} (l m : list A) : NoDup (l ++ m) -> NoDup l.
Proof. induction l as [|x l IH]; intros H; [constructor|]. inversion H; subst. constructor; [|auto]. intros X. apply H2, in_or_app. left. exact X. Qed.
Lemma NoDup_app_r {A} (l m : list A) : NoDup (l ++ m) -> NoDup m.
Proof. induction l as [|x l IH]; intros H; [exact H|]. inversion H; auto. Qed.
Lemma NoDup_app_disj {A} (l m : list A) x : NoDup (l ++ m) -> In x l -> ~ In x m.
Proof.
  induction l as [|y l IH]; intros H []; subst.
  - inversion H; subst. intros X. apply H2, in_or_app. right. exact X.
  - inversion H; subst. apply IH; assumption.
Qed.

Lemma no_module_tail c n sub ds : NoDup (introduced (PModule c n sub :: ds)) -> no_module n ds.
Proof.
  intros H c' sub' Hin. rewrite introduced_cons in H. apply (NoDup_app_disj _ _ n H); [left; reflexivity|].
  eapply in_introduced; [exact Hin|left; reflexivity].
Qed.

Lemma get_fold_some p c n sub ds : NoDup (introduced ds) -> In (PModule c n sub) ds -> forall acc,
  get_mod n (fold_left step (map (module_of p) ds) acc) = Some (module_tree n p sub).
Proof.
  induction ds as [|d ds IH]; intros Hn Hin acc; [destruct Hin|]. cbn [map fold_left].
  destruct Hin as [->|Hin].
  - rewrite get_fold_none by (eapply no_module_tail; exact Hn). cbn [module_of step]. rewrite get_insert. cbn [fst snd].
    rewrite str_eqb_refl. reflexivity.
  - apply IH; [|exact Hin]. rewrite introduced_cons in Hn. eapply NoDup_app_r. exact Hn.
Qed.
Lemma get_collect p n ds m : NoDup (introduced ds) ->
  (get_mod n (collect (map (module_of p) ds)) = Some m <-> exists c sub, In (PModule c n sub) ds /\ m = module_tree n p sub).
Proof.
  intros Hn. change (collect (map (module_of p) ds)) with (fold_left step (map (module_of p) ds) []). split.
  - intros H.
    assert (Hd : {c & {sub | In (PModule c n sub) ds}} + {no_module n ds}).
    { clear. induction ds as [|d ds IH]; [right; intros c sub []|].
      destruct IH as [(c & sub & H)|H]; [left; exists c, sub; right; exact H|].
      destruct d as [c m sub| | | | |]; try (right; intros c' sub' [X|X]; [discriminate|exact (H _ _ X)]).
      destruct (str_eqb m n) eqn:E.
      - apply str_eqb_eq in E. subst m. left. exists c, sub. left. reflexivity.
      - right. intros c' sub' [X|X]; [|exact (H _ _ X)]. injection X as -> -> ->. rewrite str_eqb_refl in E. discriminate. }
    destruct Hd as [(c & sub & Hin)|Hno].
    + exists c, sub. split; [exact Hin|]. rewrite (get_fold_some p c n sub ds Hn Hin []) in H. congruence.
    + rewrite (get_fold_none p n ds Hno []) in H. discriminate.
  - intros (c & sub & Hin & ->). apply (get_fold_some p c); assumption.
Qed.
Lemma get_collect_none p n ds : NoDup (introduced ds) -> get_mod n (collect (map (module_of p) ds)) = None -> no_module n ds.
Proof.
  intros Hn H c sub Hin. assert (X : get_mod n (collect (map (module_of p) ds)) = Some (module_tree n p sub)).
  { apply get_collect; [exact Hn|]. exists c, sub. auto. }
  congruence.
Qed.

Lemma in_collect p ds k m : NoDup (introduced ds) ->
  (In (k, m) (collect (map (module_of p) ds)) <-> exists c sub, In (PModule c k sub) ds /\ m = module_tree k p sub).
Proof.
  change (collect (map (module_of p) ds)) with (fold_left step (map (module_of p) ds) []).
  assert (G : forall ds acc, NoDup (introduced ds) ->
    (In (k, m) (fold_left step (map (module_of p) ds) acc) <->
     (In (k, m) acc /\ no_module k ds) \/ exists c sub, In (PModule c k sub) ds /\ m = module_tree k p sub)).
  { clear ds. induction ds as [|d ds IH]; intros acc Hn; cbn [map fold_left].
    - split; [intros H; left; split; [exact H|intros c sub []]|intros [[H _]|(c & sub & [] & _)]; exact H].
    - rewrite IH by (rewrite introduced_cons in Hn; eapply NoDup_app_r; exact Hn).
      destruct (module_of p d) as [e|] eqn:E; cbn [step].
      + apply module_of_some in E as (c & n & sub & -> & ->). rewrite in_insert. cbn [fst]. split.
        * intros [[[[H1 H2]|H1] H3]|(c' & sub' & H1 & H2)].
          -- left. split; [exact H1|]. intros c' sub' [X|X]; [injection X as _ -> _; exact (H2 eq_refl)|exact (H3 _ _ X)].
          -- right. injection H1 as -> ->. exists c, sub. split; [left; reflexivity|reflexivity].
          -- right. exists c', sub'. split; [right; exact H1|exact H2].
        * intros [[H1 H2]|(c' & sub' & [H1|H1] & H2)].
          -- left. split; [left; split; [exact H1|]|].
             ++ intros ->. exact (H2 c sub (or_introl eq_refl)).
             ++ intros c' sub' X. apply (H2 c' sub'). right. exact X.
          -- injection H1 as <- <- <-. left. split; [right; congruence|]. eapply no_module_tail. exact Hn.
          -- right. exists c', sub'. auto.
      + assert (Hnot : forall c n sub, d <> PModule c n sub) by (intros c n sub ->; discriminate).
        split.
        * intros [[H1 H2]|(c & sub & H1 & H2)]; [left|right; exists c, sub; split; [right; exact H1|exact H2]].
          split; [exact H1|]. intros c sub [X|X]; [exact (Hnot _ _ _ X)|exact (H2 _ _ X)].
        * intros [[H1 H2]|(c & sub & [H1|H1] & H2)].
          -- left. split; [exact H1|]. intros c sub X. apply (H2 c sub). right. exact X.
          -- destruct (Hnot _ _ _ H1).
          -- right. exists c, sub. auto. }
  intros Hn. rewrite (G ds [] Hn). split; [intros [[[] _]|H]; exact H|auto].
Qed.

(** * Module paths *)
Lemma unique_here ds : unique_names ds -> NoDup (introduced ds).
Proof. intros H. apply (H [] ds). constructor. Qed.
Lemma unique_sub ds c n sub : unique_names ds -> In (PModule c n sub) ds -> unique_names sub.
Proof. intros H Hin path m Hm. apply (H (n :: path) m). econstructor; eassumption. Qed.
Lemma unique_at ds p m : unique_names ds -> module_at ds p m -> unique_names m.
Proof. intros H Hm. induction Hm as [|ds c n sub path m Hin Hm IH]; [exact H|]. apply IH. eapply unique_sub; eassumption. Qed.
Lemma same_module ds c n sub c' sub' : NoDup (introduced ds) -> In (PModule c n sub) ds -> In (PModule c' n sub') ds -> c = c' /\ sub = sub'.
Proof.
  intros Hn. induction ds as [|d ds IH]; intros H1 H2; [destruct H1|]. destruct H1 as [H1|H1], H2 as [H2|H2].
  - subst. injection H2 as -> ->. auto.
  - subst d. destruct (no_module_tail _ _ _ _ Hn _ _ H2).
  - subst d. destruct (no_module_tail _ _ _ _ Hn _ _ H1).
  - apply IH; [rewrite introduced_cons in Hn; eapply NoDup_app_r; exact Hn|assumption|assumption].
Qed.
Lemma module_at_fun ds p m : module_at ds p m -> forall m', unique_names ds -> module_at ds p m' -> m = m'.
Proof.
  induction 1 as [ds|ds c n sub path m Hin Hm IH]; intros m' Hu H'; inversion H' as [|? c' ? sub' ? ? Hin' Hm']; subst; [reflexivity|].
  destruct (same_module _ _ _ _ _ _ (unique_here ds Hu) Hin Hin') as [-> ->]. apply IH; [eapply unique_sub; eassumption|exact Hm'].
Qed.
Lemma module_at_app ds p q m t : module_at ds p m -> module_at m q t -> module_at ds (p ++ q) t.
Proof. induction 1 as [|ds c n sub path m Hin Hm IH]; intros H; [exact H|]. cbn. econstructor; [exact Hin|apply IH; exact H]. Qed.

Lemma walk_spec {E} (miss : str -> list str -> E) path : forall m ds, unique_names ds -> tree_of m ds ->
  match walk miss m path with
  | COk m' => exists t, module_at ds path t /\ tree_of m' t
  | CErr e => (forall t, ~ module_at ds path t)
      /\ exists pre n post t q, path = pre ++ n :: post /\ module_at ds pre t /\ no_module n t /\ e = miss n q
  | CPanic => False
  end.
Proof.
  induction path as [|n path IH]; intros m ds Hu Ht; cbn [walk]; [exists ds; split; [constructor|exact Ht]|].
  destruct Ht as (name & p & ->). cbn [module_tree m_modules].
  destruct (get_mod n (collect (map (module_of (p ++ [name])) ds))) as [m'|] eqn:Eg.
  - apply get_collect in Eg as (c & sub & Hin & ->); [|apply unique_here, Hu].
    specialize (IH (module_tree n (p ++ [name]) sub) sub (unique_sub _ _ _ _ Hu Hin) (ex_intro _ n (ex_intro _ _ eq_refl))).
    destruct (walk miss (module_tree n (p ++ [name]) sub) path) as [m''|e|].
    + destruct IH as (t & H1 & H2). exists t. split; [econstructor; eassumption|exact H2].
    + destruct IH as (H1 & pre & n' & post & t & q & -> & H3 & H4 & H5). split.
      * intros t' Ht'. inversion Ht' as [|? c' ? sub' ? ? Hin' Hm']; subst.
        destruct (same_module _ _ _ _ _ _ (unique_here ds Hu) Hin Hin') as [-> ->]. exact (H1 t' Hm').
      * exists (n :: pre), n', post, t, q. split; [reflexivity|]. split; [econstructor; eassumption|]. auto.
    + exact IH.
  - apply get_collect_none in Eg; [|apply unique_here, Hu]. split.
    + intros t Ht. inversion Ht as [|? c' ? sub' ? ? Hin' Hm']; subst. exact (Eg _ _ Hin').
    + exists [], n, path, ds, (m_path (module_tree name p ds)). split; [reflexivity|]. split; [constructor|]. auto.
Qed.

(** * Declarations *)
Lemma p_len_length {A} (p : punct A) : p_len p = length (p_values p).
Proof. apply p_len_values. Qed.
Lemma count_arity g : count g = arity g.
Proof. destruct g as [g|]; [apply p_len_length|reflexivity]. Qed.
Lemma ext_args_args g : ext_args g = args g.
Proof. destruct g as [g|]; [apply p_len_length|reflexivity]. Qed.

Lemma find_decl_spec n ds : NoDup (introduced ds) ->
  match find_decl n (flat_map decl_of ds) with
  | Some dc => d_name dc = n /\ match d_kind dc with
      | DkStruct k | DkEnum k => forall k', declares ds n k' <-> k' = k
      | k => (forall k', ~ declares ds n k') /\ has_other k ds n
      end
  | None => undeclared ds n
  end.
Proof.
  induction ds as [|d ds IH]; intros Hn; [intros d []|]. rewrite introduced_cons in Hn.
  specialize (IH (NoDup_app_r _ _ Hn)). cbn [flat_map].
  assert (Hskip : (forall n', In n' (introduces d) -> n' <> n \/ match d with PModule _ _ _ | PImport _ _ => True | _ => False end) ->
      find_decl n (decl_of d ++ flat_map decl_of ds) = find_decl n (flat_map decl_of ds) /\
      (match d with PStruct _ _ n' _ _ | PEnum _ _ n' _ _ | PAlias _ n' _ _ | PConst _ n' _ _ => n' <> n | _ => True end)).
  { intros H. destruct d; cbn [decl_of introduces app] in *; try (split; [reflexivity|exact I]);
      (destruct (H name (or_introl eq_refl)) as [Hne|[]]; split; [|exact Hne]; unfold find_decl; cbn [find d_name];
       destruct (str_eqb name n) eqn:E; [apply str_eqb_eq in E; contradiction|reflexivity]). }
  assert (Hlift : (match d with PStruct _ _ n' _ _ | PEnum _ _ n' _ _ | PAlias _ n' _ _ | PConst _ n' _ _ => n' <> n | _ => True end) ->
      (forall k, declares (d :: ds) n k <-> declares ds n k)).
  { intros Hd k. split.
    - intros (x & [->|Hx] & H); [|exists x; auto]. destruct x; try contradiction; destruct H; contradiction.
    - intros (x & Hx & H). exists x. split; [right; exact Hx|exact H]. }
  assert (Hcase : (match d with PStruct _ _ n' _ _ | PEnum _ _ n' _ _ | PAlias _ n' _ _ | PConst _ n' _ _ => n' <> n | _ => True end)
      \/ (exists c a g fs, d = PStruct c a n g fs) \/ (exists c a g vs, d = PEnum c a n g vs)
      \/ (exists c g t, d = PAlias c n g t) \/ (exists c t v, d = PConst c n t v)).
  { destruct d; try (left; exact I);
      (destruct (str_eqb name n) eqn:E; [apply str_eqb_eq in E; subst name; right|left; intros ->; rewrite str_eqb_refl in E; discriminate]); eauto 10. }
  destruct Hcase as [Hd|Hcase].
  - destruct Hskip as [-> _].
    { intros n' Hn'. destruct d; cbn [introduces In] in Hn'; try (right; exact I); left; (destruct Hn' as [<-|[]]; exact Hd). }
    destruct (find_decl n (flat_map decl_of ds)) as [dc|].
    + destruct IH as [IH1 IH2]. split; [exact IH1|]. destruct (d_kind dc) as [k|k| |].
      * intros k'. rewrite (Hlift Hd). apply IH2.
      * intros k'. rewrite (Hlift Hd). apply IH2.
      * destruct IH2 as [IH2 IH3]. split; [intros k'; rewrite (Hlift Hd); apply IH2|].
        destruct IH3 as (c & g & t & Hin). exists c, g, t. right. exact Hin.
      * destruct IH2 as [IH2 IH3]. split; [intros k'; rewrite (Hlift Hd); apply IH2|].
        destruct IH3 as (c & g & t & Hin). exists c, g, t. right. exact Hin.
    + intros x [<-|Hx]; [exact Hd|apply IH; exact Hx].
  - assert (Hi : In n (introduces d)).
    { destruct Hcase as [(c & a & g & fs & ->)|[(c & a & g & vs & ->)|[(c & g & t & ->)|(c & t & v & ->)]]]; left; reflexivity. }
    pose proof (NoDup_app_disj _ _ n Hn Hi) as Hno.
    assert (Hrest : forall k, ~ declares ds n k).
    { intros k (x & Hx & H). apply Hno. eapply in_introduced; [exact Hx|].
      destruct x; try contradiction; destruct H as [<- _]; left; reflexivity. }
    destruct Hcase as [(c & a & g & fs & ->)|[(c & a & g & vs & ->)|[(c & g & t & ->)|(c & t & v & ->)]]];
      cbn [decl_of app]; unfold find_decl; cbn [find d_name]; rewrite str_eqb_refl; cbn [d_name d_kind]; (split; [reflexivity|]).
    + intros k'. split.
      * intros (x & [<-|Hx] & H); [destruct H as [_ <-]; symmetry; apply count_arity|].
        exfalso. apply (Hrest k'). exists x. auto.
      * intros ->. exists (PStruct c a n g fs). split; [left; reflexivity|]. split; [reflexivity|symmetry; apply count_arity].
    + intros k'. split.
      * intros (x & [<-|Hx] & H); [destruct H as [_ <-]; symmetry; apply count_arity|].
        exfalso. apply (Hrest k'). exists x. auto.
      * intros ->. exists (PEnum c a n g vs). split; [left; reflexivity|]. split; [reflexivity|symmetry; apply count_arity].
    + split; [|exists c, g, t; left; reflexivity]. intros k' (x & [<-|Hx] & H); [contradiction|]. apply (Hrest k'). exists x. auto.
    + split; [|exists c, t, v; left; reflexivity]. intros k' (x & [<-|Hx] & H); [contradiction|]. apply (Hrest k'). exists x. auto.
Qed.

Lemma undeclared_declares ds n k : undeclared ds n -> ~ declares ds n k.
Proof. intros H (d & Hd & X). specialize (H d Hd). destruct d; try contradiction; destruct X; contradiction. Qed.

(** * Local references *)
Lemma resolve_local_spec m ds path n g : unique_names ds -> tree_of m ds ->
  match resolve_local m (path, n, g) with
  | COk _ => local_ok ds path n (args g)
  | CErr e => ~ local_ok ds path n (args g) /\ local_reason ds path n (args g) e
  | CPanic => False
  end.
Proof.
  intros Hu Ht. unfold resolve_local. pose proof (walk_spec LMissingModule path m ds Hu Ht) as Hw.
  destruct (walk LMissingModule m path) as [m'|e|]; cbn [cbind]; [| |exact Hw].
  - destruct Hw as (t & Hat & (nm & p & ->)). cbn [module_tree m_types].
    pose proof (unique_at _ _ _ Hu Hat) as Hut.
    pose proof (find_decl_spec n t (unique_here t Hut)) as Hf.
    assert (Hloc : local_ok ds path n (args g) <-> declares t n (args g)).
    { split; [|intros H; exists t; auto]. intros (t' & Hat' & H). rewrite (module_at_fun _ _ _ Hat t' Hu Hat'). exact H. }
    destruct (find_decl n (flat_map decl_of t)) as [dc|].
    + destruct Hf as [_ Hf]. destruct (d_kind dc) as [k|k| |].
      * rewrite ext_args_args. destruct (Nat.eqb_spec k (args g)) as [He|He].
        -- apply Hloc, Hf. congruence.
        -- split; [rewrite Hloc, Hf; congruence|]. cbn. repeat split; [exact He|]. exists t. split; [exact Hat|]. apply Hf. reflexivity.
      * rewrite ext_args_args. destruct (Nat.eqb_spec k (args g)) as [He|He].
        -- apply Hloc, Hf. congruence.
        -- split; [rewrite Hloc, Hf; congruence|]. cbn. repeat split; [exact He|]. exists t. split; [exact Hat|]. apply Hf. reflexivity.
      * destruct Hf as [Hf Ho]. split; [rewrite Hloc; apply Hf|]. exists t. auto.
      * destruct Hf as [Hf Ho]. split; [rewrite Hloc; apply Hf|]. exists t. auto.
    + split; [rewrite Hloc; apply undeclared_declares; exact Hf|]. split; [reflexivity|]. exists t. auto.
  - destruct Hw as (H1 & pre & x & post & t & q & -> & H3 & H4 & ->). split.
    + intros (t' & Hat & _). exact (H1 t' Hat).
    + cbn. exists pre, post, t. auto.
Qed.

(** * Missing references *)
Lemma is_generic_spec path n g gen : is_generic (path, n, g) gen = true <->
  path = [] /\ g = None /\ In n (match gen with Some gs => p_values gs | None => [] end).
Proof.
  unfold is_generic. destruct path as [|x path].
  - destruct g as [g|]; [split; [discriminate|intros (_ & H & _); discriminate]|].
    destruct gen as [gs|]; [|split; [discriminate|intros (_ & _ & [])]].
    rewrite existsb_exists. split.
    + intros (y & Hy & E). apply str_eqb_eq in E. subst. auto.
    + intros (_ & _ & H). exists n. split; [exact H|apply str_eqb_refl].
  - split; [discriminate|intros (H & _); discriminate].
Qed.

Lemma missing_in_spec (m : rmod F) gen t e x : In (e, x) (missing_in m gen t) <->
  In e (externals t) /\ is_generic e gen = false /\ resolve_local m e = CErr x.
Proof.
  unfold missing_in. rewrite in_flat_map. split.
  - intros (e' & He & H). destruct (is_generic e' gen) eqn:Eg; [destruct H|].
    destruct (resolve_local m e') eqn:Er; try destruct H as [H|[]]; try contradiction. injection H as -> ->. auto.
  - intros (H1 & H2 & H3). exists e. split; [exact H1|]. rewrite H2, H3. left. reflexivity.
Qed.

Definition own_generics d : option generics :=
  match d with PStruct _ _ _ g _ | PEnum _ _ _ g _ => g | _ => None end.
Lemma own_generics_parameters d : (match own_generics d with Some gs => p_values gs | None => [] end) = parameters d.
Proof. destruct d as [| ? ? ? [g|] ?| ? ? ? [g|] ?| | |]; reflexivity. Qed.

Lemma missing_def_spec (m : rmod F) d e x : In (e, x) (missing_def m d) <->
  exists t, In t (flat_map field_types (field_lists d)) /\ In e (externals t)
    /\ is_generic e (own_generics d) = false /\ resolve_local m e = CErr x.
Proof.
  destruct d as [c n ds|c a n g fs|c a n g vs|c n g t|c n t v|sg el]; cbn [missing_def field_lists flat_map own_generics];
    try (split; [intros []|intros (t' & [] & _)]).
  - rewrite app_nil_r. rewrite in_flat_map. split; intros (t & Ht & H); exists t.
    + apply missing_in_spec in H. tauto.
    + split; [exact Ht|]. apply missing_in_spec. tauto.
  - rewrite in_flat_map. split.
    + intros (v & Hv & H). apply in_flat_map in H as (t & Ht & H). apply missing_in_spec in H. exists t.
      split; [|exact H]. apply in_flat_map. exists (pv_fields v). split; [apply in_map; exact Hv|exact Ht].
    + intros (t & Ht & H). apply in_flat_map in Ht as (fs & Hfs & Ht). apply in_map_iff in Hfs as (v & <- & Hv).
      exists v. split; [exact Hv|]. apply in_flat_map. exists t. split; [exact Ht|]. apply missing_in_spec. exact H.
Qed.

(** Induction over lists of definitions. *)
Lemma defs_ind (P : list (pdef F) -> Prop) :
  (forall ds, (forall c n sub, In (PModule c n sub) ds -> P sub) -> P ds) -> forall ds, P ds.
Proof.
  intros H.
  assert (G : forall d, match d with PModule _ _ ds => P ds | _ => True end).
  { induction d as [c n ds IH|c a n g fs|c a n g vs|c n g t|c n t v|sg el] using pdef_ind2; try exact I.
    apply H. intros c' n' sub Hin. exact (IH _ Hin). }
  intros ds. exact (G (PModule [] [] ds)).
Qed.

Lemma resolve_module_types_sound ds : forall nm p, unique_names ds -> forall e x,
  In (e, x) (resolve_module_types (module_tree nm p ds)) ->
  exists at_ m mm d, module_at ds at_ m /\ tree_of mm m /\ In d m /\ In (e, x) (missing_def mm d).
Proof.
  induction ds as [ds IH] using defs_ind. intros nm p Hu e x.
  unfold module_tree at 1. cbn [resolve_module_types]. fold (module_tree nm p ds).
  rewrite in_app_iff, !in_flat_map. intros [(d & Hd & H)|([k m] & Hk & H)].
  - exists [], ds, (module_tree nm p ds), d. split; [constructor|]. split; [exists nm, p; reflexivity|]. auto.
  - apply in_collect in Hk as (c & sub & Hin & ->); [|apply unique_here, Hu]. cbn [snd] in H.
    apply (IH c k sub Hin _ _ (unique_sub _ _ _ _ Hu Hin)) in H as (at_ & m & mm & d & H1 & H).
    exists (k :: at_), m, mm, d. split; [econstructor; eassumption|exact H].
Qed.
Lemma resolve_module_types_complete ds at_ m : module_at ds at_ m -> forall nm p, unique_names ds ->
  exists mm, tree_of mm m /\ forall d e x, In d m -> In (e, x) (missing_def mm d) ->
    In (e, x) (resolve_module_types (module_tree nm p ds)).
Proof.
  induction 1 as [ds|ds c n sub path m Hin Hm IH]; intros nm p Hu.
  - exists (module_tree nm p ds). split; [exists nm, p; reflexivity|]. intros d e x Hd H.
    unfold module_tree at 1. cbn [resolve_module_types]. fold (module_tree nm p ds).
    apply in_or_app. left. apply in_flat_map. exists d. auto.
  - destruct (IH n (p ++ [nm]) (unique_sub _ _ _ _ Hu Hin)) as (mm & Ht & H). exists mm. split; [exact Ht|].
    intros d e x Hd He. unfold module_tree at 1. cbn [resolve_module_types]. fold (module_tree nm p ds).
    apply in_or_app. right. apply in_flat_map. exists (n, module_tree n (p ++ [nm]) sub).
    split; [apply in_collect; [apply unique_here, Hu|]; exists c, sub; auto|]. cbn [snd]. eapply H; eassumption.
Qed.

(** References that are not found locally. *)
Definition dangling ds m path n k : Prop := refers ds m path n k /\ ~ local_ok m path n k.

Lemma missing_sound ds nm p path n g x : unique_names ds ->
  In ((path, n, g), x) (resolve_module_types (module_tree nm p ds)) ->
  exists m, dangling ds m path n (args g) /\ local_reason m path n (args g) x.
Proof.
  intros Hu H. apply resolve_module_types_sound in H as (at_ & m & mm & d & H1 & H2 & H3 & H4); [|exact Hu].
  apply missing_def_spec in H4 as (t & Ht & He & Hg & Hr).
  pose proof (resolve_local_spec mm m path n g (unique_at _ _ _ Hu H1) H2) as Hl. rewrite Hr in Hl. destruct Hl as [Hl Hx].
  exists m. split; [|exact Hx]. split; [|exact Hl]. exists at_, d, t, g.
  apply externals_parts in He as (p' & n' & g' & Heq & Hp). injection Heq as <- <- <-.
  repeat (split; [assumption || reflexivity|]). rewrite <- own_generics_parameters, <- is_generic_spec. congruence.
Qed.
Lemma missing_complete ds nm p m path n k : unique_names ds -> dangling ds m path n k ->
  exists g x, k = args g /\ In ((path, n, g), x) (resolve_module_types (module_tree nm p ds)).
Proof.
  intros Hu [(at_ & d & t & g & H1 & H2 & H3 & H4 & -> & H6) Hn]. exists g.
  destruct (resolve_module_types_complete ds at_ m H1 nm p Hu) as (mm & Ht & H).
  pose proof (resolve_local_spec mm m path n g (unique_at _ _ _ Hu H1) Ht) as Hl.
  destruct (resolve_local mm (path, n, g)) as [u|x|] eqn:Er; [contradiction| |contradiction].
  exists x. split; [reflexivity|]. apply (H d); [exact H2|]. apply missing_def_spec. exists t. split; [exact H3|].
  split; [apply externals_parts; exists path, n, g; auto|]. split; [|exact Er].
  destruct (is_generic (path, n, g) (own_generics d)) eqn:Eg; [|reflexivity]. exfalso. apply H6.
  apply is_generic_spec in Eg. rewrite own_generics_parameters in Eg. exact Eg.
Qed.

(** * Imports *)
Definition trees (schemas : list (str * list (pdef F))) : list (str * rmod F) :=
  map (fun v => (fst v, module_tree (fst v) [] (snd v))) schemas.

Lemma get_trees n (schemas : list (str * list (pdef F))) : NoDup (map fst schemas) -> forall m,
  (get_mod n (trees schemas) = Some m <-> exists ds, In (n, ds) schemas /\ m = module_tree n [] ds).
Proof.
  induction schemas as [|[k ds] l IH]; intros Hn m; cbn [trees map get_mod fst snd].
  - split; [discriminate|intros (ds & [] & _)].
  - cbn [map fst] in Hn. inversion Hn as [|? ? Hk Hl]; subst. destruct (str_eqb k n) eqn:E.
    + apply str_eqb_eq in E. subst k. split.
      * intros H. injection H as <-. exists ds. split; [left; reflexivity|reflexivity].
      * intros (ds' & [H|H] & ->); [congruence|]. destruct Hk. apply in_map_iff. exists (n, ds'). auto.
    + fold (trees l). rewrite (IH Hl). split; intros (ds' & H & ->); exists ds'; (split; [|reflexivity]); [right; exact H|].
      destruct H as [H|H]; [|exact H]. injection H as -> _. rewrite str_eqb_refl in E. discriminate.
Qed.

(** What a resolved import stands for. *)
Definition stands_for (schemas : list (str * list (pdef F))) (i : list str * option str) (r : rimport F) : Prop :=
  exists root rest ds target, fst i = root :: rest /\ In (root, ds) schemas /\ module_at ds rest target
  /\ match snd i, r with
     | Some n, RIType n' k => n' = n /\ forall k', declares target n k' <-> k' = k
     | None, RIModule m => tree_of m target
     | _, _ => False
     end.

Lemma in_fst_unique {A B} (l : list (A * B)) k x y : NoDup (map fst l) -> In (k, x) l -> In (k, y) l -> x = y.
Proof.
  induction l as [|[k' z] l IH]; intros Hn H1 H2; [destruct H1|]. cbn [map fst] in Hn. inversion Hn as [|? ? Hk Hl]; subst.
  destruct H1 as [H1|H1], H2 as [H2|H2].
  - congruence.
  - injection H1 as -> ->. destruct Hk. apply in_map_iff. exists (k, y). auto.
  - injection H2 as -> ->. destruct Hk. apply in_map_iff. exists (k, x). auto.
  - apply IH; assumption.
Qed.

Lemma resolve_one_import_spec schemas segs el : NoDup (map fst schemas) -> (forall n ds, In (n, ds) schemas -> unique_names ds) ->
  segs <> [] ->
  match resolve_one_import (trees schemas) (segs, el) with
  | COk r => import_ok schemas segs el /\ stands_for schemas (segs, el) r
  | CErr e => ~ import_ok schemas segs el /\ import_reason schemas segs el e
  | CPanic => False
  end.
Proof.
  intros Hn Hu Hne. unfold resolve_one_import. cbn [fst]. destruct segs as [|root rest]; [contradiction|].
  unfold find_schema. destruct (get_mod root (trees schemas)) as [m|] eqn:E.
  - apply (get_trees root schemas Hn) in E as (ds & Hin & ->). pose proof (Hu root ds Hin) as Hds.
    unfold resolve_import.
    assert (Hw : (if (length (root :: rest) <? 2)%nat then COk (module_tree root [] ds)
                  else walk IMissingModule (module_tree root [] ds) (skipn 1 (root :: rest)))
                 = walk IMissingModule (module_tree root [] ds) rest).
    { destruct rest as [|y rest]; [reflexivity|]. cbn [length skipn]. reflexivity. }
    rewrite Hw. clear Hw.
    pose proof (walk_spec IMissingModule rest (module_tree root [] ds) ds Hds (ex_intro _ root (ex_intro _ _ eq_refl))) as Hw.
    destruct (walk IMissingModule (module_tree root [] ds) rest) as [m'|e|]; cbn [cbind]; [| |exact Hw].
    + destruct Hw as (t & Hat & Ht).
      assert (Hds' : forall ds', In (root, ds') schemas -> ds' = ds) by (intros ds' H; eapply in_fst_unique; eassumption).
      destruct el as [n|].
      * destruct Ht as (nm & p & ->). cbn [module_tree m_types].
        pose proof (find_decl_spec n t (unique_here t (unique_at _ _ _ Hds Hat))) as Hf.
        assert (Hok : import_ok schemas (root :: rest) (Some n) <-> exists k, declares t n k).
        { split.
          - intros (root' & rest' & ds' & t' & Heq & H1 & H2 & H3). injection Heq as <- <-. rewrite (Hds' _ H1) in H2.
            rewrite (module_at_fun _ _ _ Hat t' Hds H2). exact H3.
          - intros H. exists root, rest, ds, t. auto. }
        destruct (find_decl n (flat_map decl_of t)) as [dc|].
        -- destruct Hf as [Hname Hf]. destruct (d_kind dc) as [k|k| |].
           ++ split; [apply Hok; exists k; apply Hf; reflexivity|]. exists root, rest, ds, t. repeat (split; [assumption || reflexivity|]).
              exact Hf.
           ++ split; [apply Hok; exists k; apply Hf; reflexivity|]. exists root, rest, ds, t. repeat (split; [assumption || reflexivity|]).
              exact Hf.
           ++ destruct Hf as [Hf Ho]. split; [rewrite Hok; intros (k & H); exact (Hf k H)|]. exists n, root, rest, ds, t. auto.
           ++ destruct Hf as [Hf Ho]. split; [rewrite Hok; intros (k & H); exact (Hf k H)|]. exists n, root, rest, ds, t. auto.
        -- split; [rewrite Hok; intros (k & H); exact (undeclared_declares _ _ _ Hf H)|].
           split; [reflexivity|]. exists root, rest, ds, t. auto.
      * split; [exists root, rest, ds, t; auto|]. exists root, rest, ds, t. auto.
    + destruct Hw as (H1 & pre & x & post & t & q & -> & H3 & H4 & ->). split.
      * intros (root' & rest' & ds' & t' & Heq & H2 & H5 & _). injection Heq as <- <-.
        rewrite (in_fst_unique _ _ _ _ Hn H2 Hin) in H5. exact (H1 t' H5).
      * exists root, pre, post, ds, t. auto.
  - assert (Hno : forall ds, ~ In (root, ds) schemas).
    { intros ds Hin. assert (X : get_mod root (trees schemas) = Some (module_tree root [] ds)) by (apply get_trees; [exact Hn|]; exists ds; auto).
      congruence. }
    split.
    + intros (root' & rest' & ds' & t' & Heq & H & _). injection Heq as <- <-. exact (Hno ds' H).
    + exists rest. auto.
Qed.

Lemma collect_imports_spec schemas l : NoDup (map fst schemas) -> (forall n ds, In (n, ds) schemas -> unique_names ds) ->
  (forall i, In i l -> fst i <> []) ->
  match collect_imports (trees schemas) l with
  | COk rs => Forall2 (stands_for schemas) l rs /\ forall i, In i l -> import_ok schemas (fst i) (snd i)
  | CErr e => exists i, In i l /\ ~ import_ok schemas (fst i) (snd i) /\ import_reason schemas (fst i) (snd i) e
  | CPanic => False
  end.
Proof.
  intros Hn Hu. induction l as [|[segs el] l IH]; intros Hne; cbn [collect_imports]; [split; [constructor|intros i []]|].
  pose proof (resolve_one_import_spec schemas segs el Hn Hu (Hne _ (or_introl eq_refl))) as H1.
  destruct (resolve_one_import (trees schemas) (segs, el)) as [r|e|]; cbn [cbind]; [| |exact H1].
  - assert (Hne' : forall i, In i l -> fst i <> []) by (intros i Hi; apply Hne; right; exact Hi). specialize (IH Hne').
    destruct (collect_imports (trees schemas) l) as [rs|e|]; cbn [cbind].
    + destruct IH as [IH1 IH2], H1 as [H1 H2]. split; [constructor; assumption|]. intros i [<-|Hi]; [exact H1|auto].
    + destruct IH as (i & Hi & H). exists i. split; [right; exact Hi|exact H].
    + exact IH.
  - exists (segs, el). split; [left; reflexivity|exact H1].
Qed.

Lemma in_imports ds segs el : In (segs, el) (flat_map import_of ds) <-> In (PImport segs el) ds.
Proof.
  rewrite in_flat_map. split.
  - intros (d & Hd & H). destruct d; cbn in H; try contradiction. destruct H as [H|[]]. injection H as -> ->. exact Hd.
  - intros H. exists (PImport segs el). split; [exact H|left; reflexivity].
Qed.

Lemma find_type_import_spec schemas l rs n : Forall2 (stands_for schemas) l rs ->
  match find_type_import n rs with
  | Some k => exists segs, In (segs, Some n) l /\ stands_for schemas (segs, Some n) (RIType n k)
  | None => forall segs, ~ In (segs, Some n) l
  end.
Proof.
  induction 1 as [|[segs el] r l rs H HF IH]; [intros segs []|].
  unfold find_type_import. cbn [find]. destruct r as [m|x k].
  - fold (find_type_import n rs).
    assert (Hel : el = None).
    { destruct H as (? & ? & ? & ? & _ & _ & _ & H). cbn in H. destruct el; [contradiction|reflexivity]. }
    subst el. destruct (find_type_import n rs) as [k|].
    + destruct IH as (s' & Hin & Hs). exists s'. split; [right; exact Hin|exact Hs].
    + intros s' [X|X]; [discriminate|exact (IH s' X)].
  - assert (Hel : el = Some x).
    { destruct H as (? & ? & ? & ? & _ & _ & _ & H). cbn in H. destruct el; [destruct H; congruence|contradiction]. }
    subst el. destruct (str_eqb x n) eqn:E.
    + apply str_eqb_eq in E. subst x. exists segs. split; [left; reflexivity|exact H].
    + fold (find_type_import n rs). destruct (find_type_import n rs) as [k'|].
      * destruct IH as (s' & Hin & Hs). exists s'. split; [right; exact Hin|exact Hs].
      * intros s' [X|X]; [|exact (IH s' X)]. injection X as _ ->. rewrite str_eqb_refl in E. discriminate.
Qed.

Lemma same_import ds n segs segs' : NoDup (introduced ds) ->
  In (PImport segs (Some n)) ds -> In (PImport segs' (Some n)) ds -> segs = segs'.
Proof.
  induction ds as [|d ds IH]; intros Hn H1 H2; [destruct H1|]. rewrite introduced_cons in Hn.
  destruct H1 as [H1|H1], H2 as [H2|H2].
  - congruence.
  - subst d. exfalso. apply (NoDup_app_disj _ _ n Hn); [left; reflexivity|]. eapply in_introduced; [exact H2|left; reflexivity].
  - subst d. exfalso. apply (NoDup_app_disj _ _ n Hn); [left; reflexivity|]. eapply in_introduced; [exact H1|left; reflexivity].
  - apply IH; [eapply NoDup_app_r; exact Hn|assumption|assumption].
Qed.

Lemma resolve_type_remotely_spec schemas ds rs path n g x : NoDup (map fst schemas) ->
  (forall n ds, In (n, ds) schemas -> unique_names ds) -> unique_names ds ->
  Forall2 (stands_for schemas) (flat_map import_of ds) rs ->
  match resolve_type_remotely ((path, n, g), x) rs with
  | COk _ => path = [] /\ imported_ok schemas ds n (args g)
  | CErr e => ~ (path = [] /\ imported_ok schemas ds n (args g))
       /\ match e with
          | ELocal y => y = x
          | ERemote (RMissingImport p n') => p = path /\ n' = n
          | ERemote (RGenericsCount d u) => u = args g /\ d <> args g
          | ERemote _ => path <> []
          | EImport _ => False
          end
  | CPanic => False
  end.
Proof.
  intros Hn Hus Hu HF. unfold resolve_type_remotely. destruct rs as [|r0 rs0] eqn:Ers.
  - split; [|reflexivity]. intros (_ & root & rest & ds' & t & Hin & _). apply in_imports in Hin.
    inversion HF as [He|]; subst. rewrite <- He in Hin. destruct Hin.
  - rewrite <- Ers in *. clear r0 rs0 Ers. destruct path as [|first path].
    + pose proof (find_type_import_spec schemas _ rs n HF) as Hf.
      destruct (find_type_import n rs) as [k|].
      * destruct Hf as (segs & Hin & root & rest & ds' & t & Hs1 & Hs2 & Hs3 & Hs4). cbn [fst snd] in Hs1, Hs4. destruct Hs4 as [_ Hk].
        apply in_imports in Hin. subst segs. rewrite ext_args_args.
        destruct (Nat.eqb_spec k (args g)) as [He|He].
        -- split; [reflexivity|]. exists root, rest, ds', t. repeat (split; [assumption|]). apply Hk. congruence.
        -- split; [|auto]. intros (_ & root' & rest' & ds'' & t' & H1 & H2 & H3 & H4).
           pose proof (same_import _ _ _ _ (unique_here ds Hu) Hin H1) as Heq. injection Heq as <- <-.
           rewrite (in_fst_unique _ _ _ _ Hn H2 Hs2) in H3.
           rewrite (module_at_fun _ _ _ H3 t (Hus _ _ Hs2) Hs3) in H4. apply Hk in H4. congruence.
      * split; [|auto]. intros (_ & root' & rest' & ds'' & t' & H1 & _). apply in_imports in H1. exact (Hf _ H1).
    + assert (Hno : ~ (first :: path = [] /\ imported_ok schemas ds n (args g))) by (intros [H _]; discriminate).
      destruct (find_module_import first rs) as [m|]; [|split; [exact Hno|auto]].
      destruct (resolve_remote m (first :: path, n, g)) as [u|e|] eqn:Er; cbn [map_err cbind].
      * split; [exact Hno|reflexivity].
      * split; [exact Hno|]. destruct e; try discriminate.
        -- unfold resolve_remote in Er. destruct (if str_eqb first (m_name m) then _ else _) as [m'|e'|] eqn:Ew; cbn [cbind] in Er.
           ++ destruct (find_decl n (m_types m')) as [dc|]; [|discriminate].
              destruct (d_kind dc) as [k|k| |]; try discriminate; destruct (Nat.eqb_spec k (ext_args g)); try discriminate;
                injection Er as <- <-; rewrite <- ext_args_args; auto.
           ++ exfalso. destruct (str_eqb first (m_name m)); [discriminate|].
              assert (Hmiss : forall q (mm : rmod F) e0, walk RMissingModule mm q = CErr e0 -> exists a b, e0 = RMissingModule a b).
              { clear. induction q as [|y q IH]; intros mm e0 H; cbn [walk] in H; [discriminate|].
                destruct (get_mod y (m_modules mm)); [eapply IH; exact H|]. injection H as <-. eauto. }
              apply Hmiss in Ew as (a & b & ->). discriminate.
           ++ discriminate.
        -- unfold resolve_remote in Er. exfalso. destruct (if str_eqb first (m_name m) then _ else _) as [m'|e'|] eqn:Ew; cbn [cbind] in Er.
           ++ destruct (find_decl n (m_types m')) as [dc|]; [|discriminate].
              destruct (d_kind dc) as [k|k| |]; try discriminate; destruct (Nat.eqb_spec k (ext_args g)); discriminate.
           ++ destruct (str_eqb first (m_name m)); [discriminate|].
              assert (Hmiss : forall q (mm : rmod F) e0, walk RMissingModule mm q = CErr e0 -> exists a b, e0 = RMissingModule a b).
              { clear. induction q as [|y q IH]; intros mm e0 H; cbn [walk] in H; [discriminate|].
                destruct (get_mod y (m_modules mm)); [eapply IH; exact H|]. injection H as <-. eauto. }
              apply Hmiss in Ew as (a & b & ->). discriminate.
           ++ discriminate.
      * exfalso. unfold resolve_remote in Er.
        assert (Hnp : forall q (mm : rmod F), walk RMissingModule mm q <> CPanic).
        { clear. induction q as [|y q IH]; intros mm; cbn [walk]; [discriminate|]. destruct (get_mod y (m_modules mm)); [apply IH|discriminate]. }
        destruct (str_eqb first (m_name m)).
        -- cbn [cbind] in Er. destruct (find_decl n (m_types m)) as [dc|]; [|discriminate].
           destruct (d_kind dc) as [k|k| |]; try discriminate; destruct (Nat.eqb_spec k (ext_args g)); discriminate.
        -- destruct (walk RMissingModule m (first :: path)) as [m'|e'|] eqn:Ew; cbn [cbind] in Er; [|discriminate|exact (Hnp _ _ Ew)].
           destruct (find_decl n (m_types m')) as [dc|]; [|discriminate].
           destruct (d_kind dc) as [k|k| |]; try discriminate; destruct (Nat.eqb_spec k (ext_args g)); discriminate.
Qed.

(** * Whole projects *)
Lemma resolve_one_spec order schemas nm ds : NoDup (map fst schemas) ->
  (forall n ds, In (n, ds) schemas -> unique_names ds /\ imports_rooted ds) -> In (nm, ds) schemas ->
  (forall l x, In x (order l) <-> In x l) ->
  match resolve_one order (trees schemas) (module_tree nm [] ds) with
  | COk _ => ok_schema schemas ds
  | CErr e =>
      (exists x segs el, e = EImport x /\ In (PImport segs el) ds /\ ~ import_ok schemas segs el /\ import_reason schemas segs el x)
      \/ (exists m path n k, refers ds m path n k /\ ~ local_ok m path n k /\ ~ (path = [] /\ imported_ok schemas ds n k)
           /\ ref_reason m path n k e)
  | CPanic => False
  end.
Proof.
  intros Hn Hall Hin Ho. destruct (Hall nm ds Hin) as [Hu Hroot].
  assert (Hus : forall n ds, In (n, ds) schemas -> unique_names ds) by (intros n ds' H; apply (Hall n ds' H)).
  unfold resolve_one, resolve_module_imports. cbn [module_tree m_imports]. fold (module_tree nm [] ds).
  pose proof (collect_imports_spec schemas (flat_map import_of ds) Hn Hus) as Hc.
  assert (Hne : forall i, In i (flat_map import_of ds) -> fst i <> []).
  { intros [segs el] Hi. apply in_imports in Hi. cbn. exact (Hroot segs el Hi). }
  specialize (Hc Hne). destruct (collect_imports (trees schemas) (flat_map import_of ds)) as [rs|e|]; cbn [map_err cbind]; [| |exact Hc].
  - destruct Hc as [HF Himp].
    destruct (each _ (order _)) as [u|e|] eqn:Ee.
    + destruct u. pose proof (proj1 (each_ok _ _) Ee) as He. clear Ee. split.
      * intros segs el Hi. apply in_imports in Hi. exact (Himp _ Hi).
      * intros m path n k Href.
        (* decidable by running the resolver *)
        destruct Href as (at_ & d & t & g & H1 & H2 & H3 & H4 & Hk & H6).
        destruct (resolve_module_types_complete ds at_ m H1 nm [] Hu) as (mm & Ht & H).
        pose proof (resolve_local_spec mm m path n g (unique_at _ _ _ Hu H1) Ht) as Hl.
        destruct (resolve_local mm (path, n, g)) as [v|x|] eqn:Er; [left; rewrite Hk; exact Hl| |contradiction].
        destruct Hl as [Hl _].
        destruct (missing_complete ds nm [] m path n k Hu) as (g' & x' & Hk' & Hin').
        { split; [exists at_, d, t, g; auto 10|rewrite Hk; exact Hl]. }
        right. specialize (He _ (proj2 (Ho _ _) Hin')).
        pose proof (resolve_type_remotely_spec schemas ds rs path n g' x' Hn Hus Hu HF) as Hr. rewrite He in Hr.
        rewrite Hk'. exact Hr.
    + right. apply each_err in Ee as ([[[path n] g] x] & Hx & He). apply (proj1 (Ho _ _)) in Hx.
      destruct (missing_sound ds nm [] path n g x Hu Hx) as (m & [Href Hl] & Hreason).
      pose proof (resolve_type_remotely_spec schemas ds rs path n g x Hn Hus Hu HF) as Hr; unfold ext in *; rewrite He in Hr. destruct Hr as [Hr1 Hr2].
      exists m, path, n, (args g). split; [exact Href|]. split; [exact Hl|]. split; [exact Hr1|].
      destruct e as [y|y|y]; cbn [ref_reason]; [subst y; exact Hreason|contradiction|]. destruct y; exact Hr2.
    + apply each_panic in Ee as ([[[path n] g] x] & Hx & He).
      pose proof (resolve_type_remotely_spec schemas ds rs path n g x Hn Hus Hu HF) as Hr; unfold ext in *; rewrite He in Hr. exact Hr.
  - left. destruct Hc as ([segs el] & Hi & H1 & H2). apply in_imports in Hi. exists e, segs, el. auto.
Qed.

Lemma resolve_schemas_spec order (values : list (str * pschema F)) :
  let schemas := map (fun v => (fst v, ps_defs (snd v))) values in
  NoDup (map fst schemas) ->
  (forall n ds, In (n, ds) schemas -> unique_names ds /\ imports_rooted ds) ->
  (forall l x, In x (order l) <-> In x l) ->
  match resolve_schemas order values with
  | COk _ => forall n ds, In (n, ds) schemas -> ok_schema schemas ds
  | CErr e => exists nm ds, In (nm, ds) schemas /\
      ((exists x segs el, e = EImport x /\ In (PImport segs el) ds /\ ~ import_ok schemas segs el /\ import_reason schemas segs el x)
      \/ (exists m path n k, refers ds m path n k /\ ~ local_ok m path n k /\ ~ (path = [] /\ imported_ok schemas ds n k)
           /\ ref_reason m path n k e))
  | CPanic => False
  end.
Proof.
  intros schemas Hn Hall Ho. unfold resolve_schemas.
  assert (Htrees : map (fun v => (fst v, resolve_types (fst v) (snd v))) values = trees schemas).
  { unfold trees, schemas. rewrite map_map. reflexivity. }
  cbn zeta. rewrite Htrees.
  assert (Hin : forall v, In v (trees schemas) -> exists nm ds, In (nm, ds) schemas /\ snd v = module_tree nm [] ds).
  { intros v Hv. apply in_map_iff in Hv as ([nm ds] & <- & Hv). exists nm, ds. auto. }
  destruct (each _ (trees schemas)) as [[]|e|] eqn:Ee.
  - pose proof (proj1 (each_ok _ _) Ee) as He. clear Ee. intros n ds Hi.
    assert (Hv : In (n, module_tree n [] ds) (trees schemas)) by (apply in_map_iff; exists (n, ds); auto).
    specialize (He _ Hv). cbn [snd] in He.
    pose proof (resolve_one_spec order schemas n ds Hn Hall Hi Ho) as H. rewrite He in H. exact H.
  - apply each_err in Ee as (v & Hv & He). destruct (Hin v Hv) as (nm & ds & Hi & Heq). rewrite Heq in He.
    pose proof (resolve_one_spec order schemas nm ds Hn Hall Hi Ho) as H. rewrite He in H. exists nm, ds. auto.
  - apply each_panic in Ee as (v & Hv & He). destruct (Hin v Hv) as (nm & ds & Hi & Heq). rewrite Heq in He.
    pose proof (resolve_one_spec order schemas nm ds Hn Hall Hi Ho) as H. rewrite He in H. exact H.
Qed.
End Defs.
