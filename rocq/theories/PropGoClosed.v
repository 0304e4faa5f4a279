(** C84: the generated Go files use only names that are declared, and every import they have. *)
From Verif Require Import Base Syntax Parser ParserSpec Compiler GoNames GoFile GoClosed GoClosedProofs.
From Verif Require PropGoOut.
Notation sdef_ind2 := PropGoOut.sdef_ind2.
Require Coq.Strings.String.
Import Coq.Strings.String.StringSyntax.
Local Open Scope N_scope.

(** [sub] are the definitions of the schema [ds] or of one of its modules, at any depth; [path] is
    where the file of that module is put. *)
Inductive ModuleAt {F : Type} : list str -> list (sdef F) -> list (sdef F) -> Prop :=
| at_root name ds : ModuleAt [name] ds ds
| at_module name c n sub ds path inner : In (SModule c n sub) ds -> ModuleAt (n :: path) sub inner -> ModuleAt (name :: n :: path) ds inner.

Lemma modules_files {F} (d : sdef F) path o : In (path, o) (go_modules d) ->
  exists c n sub rest inner c' m, d = SModule c n sub /\ path = n :: rest /\ ModuleAt (n :: rest) sub inner /\ o = go_file c' m inner.
Proof.
  revert path. induction d as [c n ds IH|d Hd] using sdef_ind2; intros path.
  2: { intros H. exfalso. destruct d; try (destruct H; fail). eapply Hd; reflexivity. }
  cbn [go_modules]. intros [H|H].
  - assert (path = [n]) by congruence. assert (o = go_file c n ds) by congruence. subst. exists c, n, ds, [], ds, c, n. repeat split. constructor.
  - apply in_map_iff in H as ((p & o') & E & H). cbn [fst snd] in E. assert (path = n :: p) by congruence. assert (o' = o) by congruence. subst.
    apply in_flat_map in H as (d & Hd & H). destruct (IH d Hd p H) as (c0 & m & sub & rest & inner & c' & m' & -> & -> & HM & ->).
    exists c, n, ds, (m :: rest), inner, c', m'. repeat split. eapply at_module; [exact Hd|exact HM].
Qed.
Lemma all_files {F} package (ds : list (sdef F)) path o : In (path, o) (go_files package ds) -> exists inner c m, ModuleAt path ds inner /\ o = go_file c m inner.
Proof.
  unfold go_files. intros [H|H].
  - assert (path = [package]) by congruence. assert (o = go_file [] package ds) by congruence. subst. exists ds, [], package. split; [constructor|reflexivity].
  - apply in_map_iff in H as ((p & o') & E & H). cbn [fst snd] in E. assert (path = package :: p) by congruence. assert (o' = o) by congruence. subst.
    apply in_flat_map in H as (d & Hd & H). destruct (modules_files d p o H) as (c & n & sub & rest & inner & c' & m & -> & -> & HM & ->).
    exists inner, c', m. split; [eapply at_module; eassumption|reflexivity].
Qed.

(** Every file of every schema: it is closed exactly when its module is as [module_fits] says. *)
Theorem C84_exact : forall (F : Type) (package : str) (ds : list (sdef F)) (path : list str) (f : gfile F),
  In (path, Some f) (go_files package ds) ->
  exists inner, ModuleAt path ds inner /\ (closed f <-> module_fits inner).
Proof.
  intros F package ds path f H. destruct (all_files _ _ _ _ H) as (inner & c & m & HM & E). exists inner. split; [exact HM|]. exact (closed_iff c m inner f (eq_sym E)).
Qed.
Theorem C84_exact_file : forall (F : Type) c name (ds : list (sdef F)) (f : gfile F), go_file c name ds = Some f -> (closed f <-> module_fits ds).
Proof. intros F c name ds f H. exact (closed_iff c name ds f H). Qed.

(** * A class of schemas whose files are closed *)
Section Plain.
Context {F : Type}.
Definition declares (ds : list (sdef F)) (n : str) : Prop :=
  Exists (fun d => match d with SStruct _ m [] _ | SEnum _ m _ _ | SAlias _ m _ _ => m = n | _ => False end) ds.
(** Types without tuples, 128-bit integers (unless non-zero), type arguments and paths. *)
Fixpoint plain (ds : list (sdef F)) (t : sty) : Prop :=
  match t with
  | SPrim p => p <> PrU128 /\ p <> PrI128
  | SVec t | SHashSet t | SOption t | SArray t _ => plain ds t
  | SHashMap k v => plain ds k /\ plain ds v
  | SNonZero t => match t with SPrim _ => True | _ => plain ds t end
  | STuple _ => False
  | SExternal path n gs => path = [] /\ gs = [] /\ declares ds n
  end.
Definition plain_fields (ds : list (sdef F)) (fs : sfields) : Prop :=
  Forall (fun f => (exists c r, sf_name f = c :: r /\ lower c) /\ plain ds (sf_ty f)) (ss_fields fs).
Definition plain_def (ds : list (sdef F)) (d : sdef F) : Prop :=
  match d with
  | SModule _ _ _ | SImport _ _ => True
  | SStruct _ _ g fs => g = [] /\ plain_fields ds fs
  | SEnum _ _ g vs => g = [] /\ Forall (fun v => plain_fields ds (sv_fields v)) vs
  | SAlias _ _ g t => plain ds t
  | SConst _ _ t _ => t <> SPrim PrU128 /\ t <> SPrim PrI128
  end.
Fixpoint has_non_zero (t : sty) : Prop :=
  match t with
  | SVec t | SHashSet t | SOption t | SArray t _ => has_non_zero t
  | SHashMap k v => has_non_zero k \/ has_non_zero v
  | SNonZero _ => True
  | _ => False
  end.
End Plain.

Lemma words_head : forall s acc m, s <> [] -> (acc = [] -> is_wupper m = false) ->
  exists w ws c t, words_of acc m s = w :: ws /\ w = c :: t /\ match rev acc ++ s with x :: _ => c = x | [] => False end.
Proof.
  induction s as [|c s IH]; intros acc m Hs Ha; [congruence|]. destruct s as [|n s].
  - change (words_of acc m [c]) with [rev (c :: acc)]. cbn [rev]. destruct (rev acc) as [|x r] eqn:E.
    + exists [c], [], c, []. repeat split.
    + exists (x :: r ++ [c]), [], x, (r ++ [c]). repeat split.
  - change (words_of acc m (c :: n :: s)) with (if is_wlower (next_mode m c) && is_up n then rev (c :: acc) :: words_of [] WBoundary (n :: s)
      else if is_wupper m && is_up c && is_low n then rev acc :: words_of [c] WBoundary (n :: s) else words_of (c :: acc) (next_mode m c) (n :: s)).
    destruct (is_wlower (next_mode m c) && is_up n).
    + cbn [rev]. destruct (rev acc) as [|x r] eqn:E.
      * exists [c], (words_of [] WBoundary (n :: s)), c, []. repeat split.
      * exists (x :: r ++ [c]), (words_of [] WBoundary (n :: s)), x, (r ++ [c]). repeat split.
    + destruct (is_wupper m && is_up c && is_low n) eqn:E2.
      * destruct (rev acc) as [|x r] eqn:E.
        -- exfalso. assert (acc = []) by (rewrite <- (rev_involutive acc), E; reflexivity). rewrite (Ha H) in E2. discriminate.
        -- exists (x :: r), (words_of [c] WBoundary (n :: s)), x, r. repeat split.
      * destruct (IH (c :: acc) (next_mode m c)) as (w & ws & d & t & H1 & H2 & H3); [discriminate|discriminate|]. exists w, ws, d, t. split; [exact H1|]. split; [exact H2|].
        cbn [rev] in H3. rewrite <- app_assoc in H3. exact H3.
Qed.
Lemma lower_camel_low c r : lower c -> starts_low (lower_camel (c :: r)) = true.
Proof.
  intros Hc. assert (Hl : is_low c = true) by (unfold is_low, lower in *; lia). unfold lower_camel, heck_words.
  assert (Hp : exists p ps, pieces (c :: r) = (c :: p) :: ps).
  { cbn [pieces]. destruct (pieces r) as [|p ps] eqn:E; [exists [], []; reflexivity|]. unfold is_alnum. rewrite Hl, Bool.orb_true_r. cbn [orb]. eauto. }
  destruct Hp as (p & ps & ->). cbn [flat_map].
  destruct (words_head (c :: p) [] WBoundary) as (w & ws & d & t & H1 & H2 & H3); [discriminate|reflexivity|]. rewrite H1. cbn [app]. subst w. cbn [rev app] in H3. subst d.
  cbn [map app starts_low]. unfold to_low. destruct (is_up c) eqn:Eu; [unfold is_up, is_low in *; lia|exact Hl].
Qed.
Section PlainProofs.
Context {F : Type}.
Lemma declares_resolves (ds : list (sdef F)) tps n : declares ds n -> ~ In (camel n) tps -> resolves (flat_map schema_types ds) tps (camel n) 0.
Proof.
  intros H Ht. right. split; [exact Ht|]. left. apply Exists_exists in H as (d & Hd & H). apply in_flat_map. exists d. split; [exact Hd|].
  destruct d as [c m l|c m [|x g] fs|c m g vs|c m g t|c m t v|seg el]; try contradiction; subst m; cbn [schema_types]; [left; reflexivity|right; left; reflexivity|left; reflexivity].
Qed.
Lemma plain_fits (ds : list (sdef F)) t : plain ds t -> type_fits (flat_map schema_types ds) [] t /\ tuple_free t.
Proof.
  induction t as [p|t IH|k v IHk IHv|t IH|t IH|t IH|ts IH|t n IH|path name ts IH] using LowerProofs.sty_ind2; cbn [plain]; intros H.
  - cbn. auto.
  - exact (IH H).
  - destruct H as [H1 H2]. cbn [type_fits tuple_free]. destruct (IHk H1), (IHv H2). auto.
  - exact (IH H).
  - exact (IH H).
  - destruct t; cbn [type_fits tuple_free] in *; try exact (IH H). auto.
  - destruct H.
  - exact (IH H).
  - destruct H as (-> & -> & H). split; [|exact I]. cbn [type_fits rev length]. split; [|exact I]. apply declares_resolves; [exact H|intros []].
Qed.
Lemma plain_unit (ds : list (sdef F)) name fs : starts_low name = false -> plain_fields ds fs -> fields_fit (flat_map schema_types ds) name [] fs.
Proof.
  intros Hn H. split; [constructor|]. split; [intros []|]. unfold plain_fields in H. split; (eapply Forall_impl; [|exact H]); intros f [(c & r & E & Hc) Hp].
  - apply plain_fits, Hp.
  - split; [|intros []]. intros En. pose proof (lower_camel_low c r Hc) as Hl. rewrite E in En. rewrite En in Hl. congruence.
Qed.
Lemma non_zero_asks t : has_non_zero t -> asks (tx "mabo") t.
Proof.
  induction t as [p|t IH|k v IHk IHv|t IH|t IH|t IH|ts IH|t n IH|path name ts IH] using LowerProofs.sty_ind2; cbn [has_non_zero asks]; intros H; auto; try contradiction.
  destruct H as [H|H]; auto.
Qed.
Theorem C84_closed_partial : forall (c : comment) (name : str) (ds : list (sdef F)) (f : gfile F),
  go_file c name ds = Some f ->
  Forall (plain_def ds) ds ->
  (exists d t, In d ds /\ In t (written_types d) /\ has_non_zero t) ->
  (exists d, In d ds /\ has_codec d) ->
  closed f.
Proof.
  intros c name ds f H Hp (d1 & t & Hd1 & Ht & Hnz) (d2 & Hd2 & Hc). apply (closed_iff c name ds f H). split; [|split].
  - eapply Forall_impl; [|exact Hp]. intros d Hd. destruct d as [c' m l|c' m g fs|c' m g vs|c' m g u|c' m u v|seg el]; cbn [plain_def def_fits] in *; auto.
    + destruct Hd as [-> Hd]. apply plain_unit; [apply camel_not_low|exact Hd].
    + destruct Hd as [-> Hd]. eapply Forall_impl; [|exact Hd]. intros v Hv. change (variant_generics [] v) with (@nil str). apply plain_unit; [apply variant_not_low|exact Hv].
    + apply plain_fits, Hd.
  - apply Exists_exists. exists d1. split; [exact Hd1|]. apply Exists_exists. exists t. split; [exact Ht|apply non_zero_asks, Hnz].
  - apply Exists_exists. exists d2. auto.
Qed.

(** * What is not closed *)

(** A module in which no type of a field or alias has a tuple, a [non_zero] or a path ending in mabo. *)
Theorem C84_unused_import_refuted : forall (c : comment) (name : str) (ds : list (sdef F)) (f : gfile F),
  go_file c name ds = Some f ->
  (forall d t, In d ds -> In t (written_types d) -> ~ asks (tx "mabo") t) ->
  ~ closed f.
Proof.
  intros c name ds f H Hn Hc. apply (closed_iff c name ds f H) in Hc as (_ & Hm & _). apply Exists_exists in Hm as (d & Hd & Hm). apply Exists_exists in Hm as (t & Ht & Hm). exact (Hn d t Hd Ht Hm).
Qed.
(** A module without structs and variants (say, one that only has constants, imports and modules). *)
Theorem C84_no_struct_refuted : forall (c : comment) (name : str) (ds : list (sdef F)) (f : gfile F),
  go_file c name ds = Some f ->
  (forall d, In d ds -> ~ has_codec d /\ forall t, In t (written_types d) -> ~ asks (tx "buf") t) ->
  ~ closed f.
Proof.
  intros c name ds f H Hn Hc. apply (closed_iff c name ds f H) in Hc as (_ & _ & Hm). apply Exists_exists in Hm as (d & Hd & [Hm|Hm]); [exact (proj1 (Hn d Hd) Hm)|].
  apply Exists_exists in Hm as (t & Ht & Hm). exact (proj2 (Hn d Hd) t Ht Hm).
Qed.
(** Parts of a type that are written in Go as they stand. *)
Inductive part (u : sty) : sty -> Prop :=
| part_here : part u u
| part_vec t : part u t -> part u (SVec t)
| part_set t : part u t -> part u (SHashSet t)
| part_option t : part u t -> part u (SOption t)
| part_array t n : part u t -> part u (SArray t n)
| part_key k v : part u k -> part u (SHashMap k v)
| part_value k v : part u v -> part u (SHashMap k v)
| part_non_zero t : part u t -> (forall p, t <> SPrim p) -> part u (SNonZero t)
| part_tuple ts t : In t ts -> part u t -> part u (STuple ts)
| part_arg path n gs t : In t gs -> part u t -> part u (SExternal path n gs).
Lemma part_fits types tps u t : part u t -> type_fits types tps t -> type_fits types tps u.
Proof.
  intros H. induction H as [|t _ IH|t _ IH|t _ IH|t n _ IH|k v _ IH|k v _ IH|t _ IH Hp|ts t Hi _ IH|path n gs t Hi _ IH]; cbn [type_fits]; intros Ht; auto; try (apply IH; tauto).
  - destruct t; try (apply IH; exact Ht). exfalso. exact (Hp _ eq_refl).
  - apply IH. rewrite fits_all in Ht. rewrite Forall_forall in Ht. auto.
  - apply IH. rewrite fits_all in Ht. destruct Ht as [_ Ht]. rewrite Forall_forall in Ht. auto.
Qed.
Lemma written_fits types (d : sdef F) t : def_fits types d -> In t (written_types d) -> exists tps, type_fits types tps t /\
  match d with SStruct _ _ g _ => tps = g | SEnum _ _ g vs => exists v, In v vs /\ tps = variant_generics g v /\ In t (map sf_ty (ss_fields (sv_fields v))) | _ => tps = [] end.
Proof.
  intros H Ht. destruct d as [c' m l|c' m g fs|c' m g vs|c' m g u|c' m u v|seg el]; cbn [def_fits written_types] in *; try contradiction.
  - apply in_map_iff in Ht as (f & <- & Hf). destruct H as (_ & _ & H & _). rewrite Forall_forall in H. exists g. split; [apply H, Hf|reflexivity].
  - apply in_flat_map in Ht as (v & Hv & Ht). rewrite Forall_forall in H. destruct (H v Hv) as (_ & _ & H' & _). exists (variant_generics g v). split; [|exists v; auto].
    apply in_map_iff in Ht as (f & <- & Hf). rewrite Forall_forall in H'. apply H', Hf.
  - destruct Ht as [<-|[]]. exists []. auto.
Qed.
Lemma closed_part c name (ds : list (sdef F)) f d t u : go_file c name ds = Some f -> closed f -> In d ds -> In t (written_types d) -> part u t ->
  exists tps, type_fits (flat_map schema_types ds) tps u /\
  match d with SStruct _ _ g _ => tps = g | SEnum _ _ g vs => exists v, In v vs /\ tps = variant_generics g v /\ In t (map sf_ty (ss_fields (sv_fields v))) | _ => tps = [] end.
Proof.
  intros H Hc Hd Ht Hu. apply (closed_iff c name ds f H) in Hc as (Hf & _ & _). rewrite Forall_forall in Hf.
  destruct (written_fits _ d t (Hf d Hd) Ht) as (tps & H1 & H2). exists tps. split; [exact (part_fits _ _ _ _ Hu H1)|exact H2].
Qed.
(** A 128-bit integer anywhere in a field or alias (other than directly under [non_zero]): the package big is not imported. *)
Theorem C84_wide_integer_refuted : forall (c : comment) (name : str) (ds : list (sdef F)) (f : gfile F) d t p,
  go_file c name ds = Some f -> In d ds -> In t (written_types d) -> part (SPrim p) t -> p = PrU128 \/ p = PrI128 -> ~ closed f.
Proof.
  intros c name ds f d t p H Hd Ht Hp Hw Hc. destruct (closed_part c name ds f d t _ H Hc Hd Ht Hp) as (tps & Hf & _). cbn [type_fits] in Hf. destruct Hf, Hw; contradiction.
Qed.
Theorem C84_wide_const_refuted : forall (c : comment) (name : str) (ds : list (sdef F)) (f : gfile F) c' n v p,
  go_file c name ds = Some f -> In (SConst c' n (SPrim p) v) ds -> p = PrU128 \/ p = PrI128 -> ~ closed f.
Proof.
  intros c name ds f c' n v p H Hd Hw Hc. apply (closed_iff c name ds f H) in Hc as (Hf & _ & _). rewrite Forall_forall in Hf. specialize (Hf _ Hd). cbn [def_fits] in Hf. destruct Hf, Hw as [-> | ->]; congruence.
Qed.
(** A reference through a module path: no module is ever imported. *)
Theorem C84_path_refuted : forall (c : comment) (name : str) (ds : list (sdef F)) (f : gfile F) d t path m n gs,
  go_file c name ds = Some f -> In d ds -> In t (written_types d) -> part (SExternal (path ++ [m]) n gs) t -> m <> tx "mabo" -> m <> tx "buf" -> ~ closed f.
Proof.
  intros c name ds f d t path m n gs H Hd Ht Hp H1 H2 Hc. destruct (closed_part c name ds f d t _ H Hc Hd Ht Hp) as (tps & Hf & _). cbn [type_fits] in Hf. rewrite rev_app_distr in Hf. cbn [rev app] in Hf. destruct Hf as [[Hf|Hf] _]; contradiction.
Qed.
(** A reference (in a struct) to a name that is neither a type parameter nor declared in the same module with that number
    of parameters: an imported name ([use]), a name of an outer module, or a generic enum or alias with its arguments. *)
Theorem C84_reference_refuted : forall (c : comment) (name : str) (ds : list (sdef F)) (f : gfile F) c' n g fs fld m gs,
  go_file c name ds = Some f -> In (SStruct c' n g fs) ds -> In fld (ss_fields fs) -> part (SExternal [] m gs) (sf_ty fld) ->
  ~ In (camel m) g -> ~ In (camel m, length gs) (flat_map schema_types ds) -> ~ closed f.
Proof.
  intros c name ds f c' n g fs fld m gs H Hd Hfld Hp H1 H2 Hc. destruct (closed_part c name ds f _ (sf_ty fld) _ H Hc Hd (in_map sf_ty _ _ Hfld) Hp) as (tps & Hf & ->).
  cbn [type_fits rev] in Hf. destruct Hf as [[[Hf _]|[_ [Hf|(_ & Hf & _)]]] _]; [contradiction|contradiction|].
  pose proof (camel_not_low m) as Hl. assert (K : Forall (fun x => starts_low x = true) predeclared_types) by (repeat constructor). rewrite Forall_forall in K. rewrite (K _ Hf) in Hl. discriminate.
Qed.
(** The same in an alias, whose type parameters are not declared at all. *)
Theorem C84_alias_refuted : forall (c : comment) (name : str) (ds : list (sdef F)) (f : gfile F) c' n g t m gs,
  go_file c name ds = Some f -> In (SAlias c' n g t) ds -> part (SExternal [] m gs) t -> ~ In (camel m, length gs) (flat_map schema_types ds) -> ~ closed f.
Proof.
  intros c name ds f c' n g t m gs H Hd Hp H2 Hc. destruct (closed_part c name ds f _ t _ H Hc Hd (or_introl eq_refl) Hp) as (tps & Hf & ->).
  cbn [type_fits rev] in Hf. destruct Hf as [[[[] _]|[_ [Hf|(_ & Hf & _)]]] _]; [contradiction|].
  pose proof (camel_not_low m) as Hl. assert (K : Forall (fun x => starts_low x = true) predeclared_types) by (repeat constructor). rewrite Forall_forall in K. rewrite (K _ Hf) in Hl. discriminate.
Qed.
(** A type parameter of a struct, unless there is a type of that name: it is mentioned outside of the struct. *)
Theorem C84_generic_refuted : forall (c : comment) (name : str) (ds : list (sdef F)) (f : gfile F) c' n g fs x,
  go_file c name ds = Some f -> In (SStruct c' n g fs) ds -> In x g -> ~ In x (map fst (flat_map schema_types ds)) -> ~ In x predeclared_types -> ~ closed f.
Proof.
  intros c name ds f c' n g fs x H Hd Hx H1 H2 Hc. apply (closed_iff c name ds f H) in Hc as (Hf & _ & _). rewrite Forall_forall in Hf. destruct (Hf _ Hd) as (Hg & _).
  rewrite Forall_forall in Hg. destruct (Hg x Hx) as [[[] _]|[_ [Hr|(_ & Hr & _)]]]; [|contradiction]. apply H1. apply in_map_iff. exists (x, 0%nat). auto.
Qed.
(** A tuple in a field: the function that reads it uses undeclared variables. *)
Theorem C84_tuple_refuted : forall (c : comment) (name : str) (ds : list (sdef F)) (f : gfile F) c' n g fs fld,
  go_file c name ds = Some f -> In (SStruct c' n g fs) ds -> In fld (ss_fields fs) -> ~ tuple_free (sf_ty fld) -> ~ closed f.
Proof.
  intros c name ds f c' n g fs fld H Hd Hfld Ht Hc. apply (closed_iff c name ds f H) in Hc as (Hf & _ & _). rewrite Forall_forall in Hf. destruct (Hf _ Hd) as (_ & _ & Hg & _).
  rewrite Forall_forall in Hg. exact (Ht (proj2 (Hg fld Hfld))).
Qed.
End PlainProofs.

(** * Concrete schemas *)
Definition defs_of (src : str) : list (sdef str) :=
  match schema_parse (@Some str) src with
  | Some s => match simplify_schema true s with Some (_, ds) => ds | None => [] end
  | None => []
  end.
Definition made_of (src : str) : option (gfile str) := go_file [] (tx "sample") (defs_of src).
Definition has_file (src : str) : bool := match made_of src with Some _ => true | None => false end.

Definition good_src : str := tx "struct Point {
    x: non_zero<u32> @1,
    y: vec<Kind> @2,
}
enum Kind {
    First @1,
    Second(hash_map<u8, Point> @1) @2,
}
type Other = Point;
const SIZE: u32 = 5;
".
Example C84_good_ex : exists f, made_of good_src = Some f /\ closed f.
Proof.
  destruct (made_of good_src) as [f|] eqn:E; [|exfalso; vm_compute in E; discriminate]. exists f. split; [reflexivity|].
  unfold made_of in E. revert E. generalize (eq_refl (defs_of good_src)). generalize (defs_of good_src) at 2 3. intros ds Hds E. vm_compute in Hds.
  apply (C84_closed_partial [] (tx "sample") ds f E).
  - rewrite <- Hds. assert (Hp : forall (l : list (sdef str)), l = ds -> declares l (tx "Point")).
    { intros l ->. rewrite <- Hds. left. reflexivity. }
    assert (Hk : forall (l : list (sdef str)), l = ds -> declares l (tx "Kind")).
    { intros l ->. rewrite <- Hds. right. left. reflexivity. }
    repeat apply Forall_cons; try apply Forall_nil; cbn [plain_def]; try (split; [reflexivity|]).
    + unfold plain_fields. cbn [ss_fields]. repeat apply Forall_cons; try apply Forall_nil; cbn [sf_name sf_ty plain].
      * split; [|exact I]. eexists _, _. split; [reflexivity|]. unfold lower. lia.
      * split; [eexists _, _; split; [reflexivity|unfold lower; lia]|]. split; [reflexivity|]. split; [reflexivity|]. apply Hk, Hds.
    + repeat apply Forall_cons; try apply Forall_nil; unfold plain_fields; cbn [sv_fields ss_fields]; repeat apply Forall_cons; try apply Forall_nil; cbn [sf_name sf_ty plain].
      split; [eexists _, _; split; [reflexivity|unfold lower; lia]|]. split; [split; discriminate|]. split; [reflexivity|]. split; [reflexivity|]. apply Hp, Hds.
    + split; [reflexivity|]. apply Hp, Hds.
    + split; discriminate.
  - eexists _, _. rewrite <- Hds. split; [left; reflexivity|]. split; [left; reflexivity|exact I].
  - eexists. rewrite <- Hds. split; [left; reflexivity|exact I].
Qed.

(** A schema whose file is not closed. *)
Definition not_closed (src : str) : Prop := exists f, made_of src = Some f /\ ~ closed f.
Ltac made src := unfold not_closed; destruct (made_of src) as [f|] eqn:E; [|exfalso; vm_compute in E; discriminate]; exists f; split; [reflexivity|]; unfold made_of in E.
Ltac absent := let H := fresh in intros H; vm_compute in H; intuition discriminate.
(** A struct with two plain fields does not compile: the package mabo is imported and not used. *)
Example C84_unused_import_ex : not_closed (tx "struct Sample {
    a: u32 @1,
    b: bool @2,
}
").
Proof.
  match goal with |- not_closed ?s => made s end.
  eapply C84_unused_import_refuted; [exact E|]. intros d t Hd Ht. vm_compute in Hd. destruct Hd as [<-|[]]. vm_compute in Ht. destruct Ht as [<-|[<-|[]]]; cbn [asks]; intros [_ K]; discriminate K.
Qed.
Example C84_no_struct_ex : not_closed (tx "const A: u32 = 1;
").
Proof.
  match goal with |- not_closed ?s => made s end.
  eapply C84_no_struct_refuted; [exact E|]. intros d Hd. vm_compute in Hd. destruct Hd as [<-|[]]. split; [intros []|intros t []].
Qed.
Example C84_wide_integer_ex : not_closed (tx "struct A {
    a: vec<u128> @1,
    b: non_zero<u8> @2,
}
").
Proof.
  match goal with |- not_closed ?s => made s end.
  eapply (C84_wide_integer_refuted [] (tx "sample") _ f _ _ PrU128 E); [left; reflexivity|left; reflexivity| |left; reflexivity]. apply part_vec, part_here.
Qed.
Example C84_wide_const_ex : not_closed (tx "const A: i128 = 1;
").
Proof.
  match goal with |- not_closed ?s => made s end.
  eapply (C84_wide_const_refuted [] (tx "sample") _ f _ _ _ PrI128 E); [left; reflexivity|right; reflexivity].
Qed.
Example C84_path_ex : not_closed (tx "mod inner {
    struct B(u8 @1)
}
struct A {
    a: inner::B @1,
    b: non_zero<u8> @2,
}
").
Proof.
  match goal with |- not_closed ?s => made s end.
  eapply (C84_path_refuted [] (tx "sample") _ f _ _ [] (tx "inner") (tx "B") [] E); [right; left; reflexivity|left; reflexivity|apply part_here|discriminate|discriminate].
Qed.
(** An imported type, and the same of a generic enum. *)
Example C84_reference_ex : not_closed (tx "use other::B;
struct A {
    a: B @1,
    b: non_zero<u8> @2,
}
").
Proof.
  match goal with |- not_closed ?s => made s end.
  eapply (C84_reference_refuted [] (tx "sample") _ f _ _ _ _ _ (tx "B") [] E); [right; left; reflexivity|left; reflexivity|apply part_here|intros []|absent].
Qed.
Example C84_generic_enum_ex : not_closed (tx "enum Either<L, R> {
    Left(L @1) @1,
    Right(R @1) @2,
}
struct A {
    a: Either<u8, u16> @1,
    b: non_zero<u8> @2,
}
").
Proof.
  match goal with |- not_closed ?s => made s end.
  eapply (C84_reference_refuted [] (tx "sample") _ f _ _ _ _ _ (tx "Either") [SPrim PrU8; SPrim PrU16] E); [right; left; reflexivity|left; reflexivity|apply part_here|intros []|absent].
Qed.
Example C84_alias_ex : not_closed (tx "type A<T> = vec<T>;
").
Proof.
  match goal with |- not_closed ?s => made s end.
  eapply (C84_alias_refuted [] (tx "sample") _ f _ _ _ _ (tx "T") [] E); [left; reflexivity|apply part_vec, part_here|absent].
Qed.
Example C84_generic_ex : not_closed (tx "struct A<T> {
    a: T @1,
    b: non_zero<u8> @2,
}
").
Proof.
  match goal with |- not_closed ?s => made s end.
  eapply (C84_generic_refuted [] (tx "sample") _ f _ _ _ _ (tx "T") E); [left; reflexivity|left; reflexivity|absent|absent].
Qed.
Example C84_tuple_ex : not_closed (tx "struct A {
    a: (u8, u16) @1,
}
").
Proof.
  match goal with |- not_closed ?s => made s end.
  eapply (C84_tuple_refuted [] (tx "sample") _ f _ _ _ _ _ E); [left; reflexivity|left; reflexivity|intros []].
Qed.
Print Assumptions C84_exact.
Print Assumptions C84_closed_partial.
