(** Property theorems C35 and C36: type references. *)
From Verif Require Import Base Syntax Compiler CompilerSpec CompilerClaims CompilerProofs CompilerMore
  Resolve ResolveSpec ResolveClaims ResolveProofs PropCompiler.
Local Open Scope N_scope.

(** The project as the statements see it: schema names with their definitions. *)
Definition definitions_of {F} (values : list (str * pschema F)) : list (str * list (pdef F)) :=
  map (fun v => (fst v, ps_defs (snd v))) values.
(** What the compiler is given: differently named schemas that passed validation, with
    imports that name a schema. *)
Definition project {F} (pick : list str -> nat) (chk : bool) (values : list (str * pschema F)) : Prop :=
  NoDup (map fst values) /\
  forall n s, In (n, s) values -> validate_schema pick chk s = COk tt /\ u32_defs (ps_defs s) /\ imports_rooted (ps_defs s).
(** Nothing is known of the order in which missing types are looked at, but none is lost. *)
Definition some_order (order : list (ext * lerr) -> list (ext * lerr)) : Prop := forall l x, In x (order l) <-> In x l.

Lemma module_within {F} (ds : list (pdef F)) path m : module_at ds path m ->
  m = ds \/ exists c n, within (PModule c n m) ds.
Proof.
  induction 1 as [|ds c n sub path m Hin Hm IH]; [left; reflexivity|]. right. destruct IH as [->|(c' & n' & H)].
  - exists c, n. constructor. exact Hin.
  - exists c', n'. econstructor; eassumption.
Qed.
Lemma valid_unique {F} chk (ds : list (pdef F)) : valid chk ds -> unique_names ds.
Proof.
  intros [H1 H2] path m Hm. apply module_within in Hm as [->|(c & n & Hw)]; [exact H1|].
  destruct (H2 _ Hw) as [H _]. apply H. left. reflexivity.
Qed.
Lemma project_spec {F} pick chk (values : list (str * pschema F)) : project pick chk values ->
  NoDup (map fst (definitions_of values)) /\
  forall n ds, In (n, ds) (definitions_of values) -> unique_names ds /\ imports_rooted ds.
Proof.
  intros [Hn H]. split; [unfold definitions_of; rewrite map_map; exact Hn|].
  intros n ds Hin. apply in_map_iff in Hin as ([n' s] & Heq & Hin). cbn in Heq. injection Heq as -> <-.
  destruct (H n s Hin) as (Hv & Hu & Hr). split; [|exact Hr]. apply (valid_unique chk), (validate_schema_exact pick); assumption.
Qed.

(** * C35: which projects are accepted *)

(** A validated project resolves exactly if all imports exist and every checked reference
    means a struct or enum of that many type parameters: one of the own schema, counting the
    path from the referring module, or one imported by name at the top of the schema. *)
Theorem C35_resolution_exact_partial : forall (F : Type) (pick : list str -> nat) (chk : bool) order (values : list (str * pschema F)),
  project pick chk values -> some_order order ->
  (resolve_schemas order values = COk tt <->
   forall n ds, In (n, ds) (definitions_of values) ->
     (forall segs e, In (PImport segs e) ds -> import_ok (definitions_of values) segs e) /\
     (forall m path t k, refers ds m path t k ->
        local_ok m path t k \/ (path = [] /\ imported_ok (definitions_of values) ds t k))).
Proof.
  intros F pick chk order values Hp Ho. destruct (project_spec pick chk values Hp) as [Hn Hall].
  pose proof (resolve_schemas_spec order values Hn Hall Ho) as H. cbn zeta in H. fold (definitions_of values) in H.
  destruct (resolve_schemas order values) as [[]|e|].
  - split; [intros _; exact H|reflexivity].
  - split; [discriminate|]. intros Hok. exfalso. destruct H as (nm & ds & Hin & H). destruct (Hok nm ds Hin) as [Hi Hr].
    destruct H as [(x & segs & el & _ & H1 & H2 & _)|(m & path & n & k & H1 & H2 & H3 & _)].
    + exact (H2 (Hi _ _ H1)).
    + destruct (Hr m path n k H1); contradiction.
  - contradiction.
Qed.
Print Assumptions C35_resolution_exact_partial.

(** A rejected project has the reported problem, and the compiler never panics here. *)
Theorem C35_errors_are_true : forall (F : Type) (pick : list str -> nat) (chk : bool) order (values : list (str * pschema F)),
  project pick chk values -> some_order order ->
  resolve_schemas order values <> CPanic /\
  forall e, resolve_schemas order values = CErr e ->
  exists nm ds, In (nm, ds) (definitions_of values) /\
    ((exists x segs el, e = EImport x /\ In (PImport segs el) ds /\ ~ import_ok (definitions_of values) segs el
        /\ import_reason (definitions_of values) segs el x)
     \/ (exists m path n k, refers ds m path n k /\ ~ local_ok m path n k
        /\ ~ (path = [] /\ imported_ok (definitions_of values) ds n k) /\ ref_reason m path n k e)).
Proof.
  intros F pick chk order values Hp Ho. destruct (project_spec pick chk values Hp) as [Hn Hall].
  pose proof (resolve_schemas_spec order values Hn Hall Ho) as H. cbn zeta in H. fold (definitions_of values) in H.
  destruct (resolve_schemas order values) as [u|e|]; (split; [discriminate || contradiction|]).
  - discriminate.
  - intros e' E. injection E as <-. exact H.
  - contradiction.
Qed.
Print Assumptions C35_errors_are_true.

(** The sample schema (which imports [Point] from [shapes]) beside a schema declaring it. *)
Definition point : pdef unit := PStruct [] [] [80] None (FNamed (one (NField [] [120] (PPrim PrU32) None))).
Definition two : list (str * pschema unit) := [([109], sample); ([115], PSchema [] [point])].
Definition same (l : list (ext * lerr)) := l.
Lemma two_project : project pick0 false two.
Proof.
  split; [cbn; repeat constructor; cbn; intuition discriminate|].
  intros n s [H|[H|[]]]; injection H as <- <-.
  - split; [vm_compute; reflexivity|]. split; [exact sample_u32|].
    intros segs e Hin. repeat (destruct Hin as [Hin|Hin]; [try discriminate Hin; injection Hin as <- <-; discriminate|]). contradiction.
  - split; [vm_compute; reflexivity|]. split.
    + intros d decl Hd Hi. inversion Hd as [? Hin|c n sub ? Hin Hw]; subst; destruct Hin as [Hin|[]]; [|discriminate Hin].
      subst d. cbn in Hi. destruct Hi as [<-|[]]. intros e [He|[]]. discriminate.
    + intros segs e [Hin|[]]. discriminate Hin.
Qed.
Lemma same_order : some_order same.
Proof. intros l x. reflexivity. Qed.
Example two_resolves : resolve_schemas same two = COk tt.
Proof. vm_compute. reflexivity. Qed.
(** Its field [next: option<inner::Kind<K>>] refers to a type of a submodule. *)
Example two_refers : refers (ps_defs sample) (ps_defs sample) [[105]] [75] 1 /\ local_ok (ps_defs sample) [[105]] [75] 1.
Proof.
  split.
  - exists [], node_def, (POption (PExternal [[105]] [75] (Some (one (ref [75]))))), (Some (one (ref [75]))).
    split; [constructor|]. split; [cbn; tauto|]. split; [cbn; tauto|]. split; [|split; [reflexivity|intros [H _]; discriminate]].
    eapply part_child; [reflexivity|left; reflexivity|apply part_self].
  - exists [kind_def]. split; [econstructor; [right; left; reflexivity|constructor]|].
    exists kind_def. split; [left; reflexivity|]. split; reflexivity.
Qed.
(** Leaving out the imported schema is an error: [use shapes::Point] names no schema. *)
Example alone_rejected : resolve_schemas same [([109], sample)] = CErr (EImport (IMissingSchema [115])).
Proof. vm_compute. reflexivity. Qed.

(** What the theorem leaves out, and the claim gets wrong: aliases and constants are not
    looked at, so that [type A = Missing;] is accepted, and neither is what is inside of
    [non_zero]. *)
Theorem C35_alias_target_refuted : forall order : list (ext * lerr) -> list (ext * lerr), some_order order ->
  let missing := PExternal [] [77] None in
  let s : pschema unit := PSchema [] [PAlias [] [65] None missing;
             PStruct [] [] [66] None (FNamed (one (NField [] [120] (PNonZero missing) None)))] in
  validate_schema pick0 false s = COk tt /\ resolve_schemas order [([109], s)] = COk tt
  /\ ~ (exists k, declares (ps_defs s) [77] k).
Proof.
  intros order Ho missing s. split; [vm_compute; reflexivity|]. split.
  - assert (Hnil : order [] = []).
    { destruct (order []) as [|x l] eqn:E; [reflexivity|]. destruct (proj1 (Ho [] x)). rewrite E. left. reflexivity. }
    unfold resolve_schemas. cbn. unfold resolve_one. cbn. rewrite Hnil. reflexivity.
  - intros (k & d & Hin & H). destruct Hin as [<-|[<-|[]]]; [exact H|]. destruct H. discriminate.
Qed.
Print Assumptions C35_alias_target_refuted.

(** And a type alias, an existing definition, can not be referred to at all. *)
Theorem C35_alias_unusable : forall (F : Type) (pick : list str -> nat) (chk : bool) order (values : list (str * pschema F)) nm ds m n,
  project pick chk values -> some_order order -> In (nm, ds) (definitions_of values) ->
  refers ds m [] n 0 -> (exists c g t, In (PAlias c n g t) m) -> (forall segs, ~ In (PImport segs (Some n)) ds) ->
  resolve_schemas order values <> COk tt.
Proof.
  intros F pick chk order values nm ds m n Hp Ho Hin Href (c & g & t & Ha) Hno H.
  destruct (project_spec pick chk values Hp) as [Hn Hall].
  pose proof (proj1 (C35_resolution_exact_partial F pick chk order values Hp Ho) H) as Hx0; clear H; rename Hx0 into H. specialize (H nm ds Hin) as [_ H].
  destruct (H m [] n 0%nat Href) as [(target & Hat & d & Hd & Hx)|[_ (root & rest & ds' & target & Hi & _)]].
  - inversion Hat; subst target.
    assert (Hm : unique_names m).
    { destruct Href as (at_ & _ & _ & _ & Hm & _). eapply unique_at; [apply (Hall nm ds Hin)|exact Hm]. }
    pose proof (find_decl_spec n m (unique_here m Hm)) as Hf.
    assert (Hnd : forall l : list (pdef F), NoDup (introduced l) -> In (PAlias c n g t) l -> In d l -> False).
    { induction l as [|y l IH]; intros Hnd HA HD; [destruct HA|]. destruct HA as [->|H1], HD as [H2|H2].
      - subst d; exact Hx.
      - rewrite introduced_cons in Hnd. apply (NoDup_app_disj _ _ n Hnd); [left; reflexivity|]. eapply in_introduced; [exact H2|].
        destruct d; try contradiction; destruct Hx as [<- _]; left; reflexivity.
      - subst y. rewrite introduced_cons in Hnd. apply (NoDup_app_disj _ _ n Hnd); [|eapply in_introduced; [exact H1|left; reflexivity]].
        destruct d; try contradiction; destruct Hx as [<- _]; left; reflexivity.
      - apply IH; [rewrite introduced_cons in Hnd; eapply NoDup_app_r; exact Hnd|assumption|assumption]. }
    exact (Hnd m (unique_here m Hm) Ha Hd).
  - exact (Hno _ Hi).
Qed.
Print Assumptions C35_alias_unusable.
(** [type A = u32; struct B { x: A }]. *)
Example alias_rejected : resolve_schemas same
  [([109], PSchema [] [PAlias [] [65] None (PPrim PrU32); PStruct [] [] [66] None (FNamed (one (NField [] [120] (ref [65]) None))) : pdef unit])]
  = CErr (ELocal (LInvalidKind DkAlias)).
Proof. vm_compute. reflexivity. Qed.

(** * C36: types of other schemas *)

(** A project whose cross-schema references are all to types imported by name is accepted. *)
Theorem C36_type_imports_accepted_partial : forall (F : Type) (pick : list str -> nat) (chk : bool) order (values : list (str * pschema F)),
  project pick chk values -> some_order order ->
  (forall nm ds segs e, In (nm, ds) (definitions_of values) -> In (PImport segs e) ds -> import_ok (definitions_of values) segs e) ->
  (forall nm ds m path n k, In (nm, ds) (definitions_of values) -> refers ds m path n k ->
     local_ok m path n k \/ (path = [] /\ imported_ok (definitions_of values) ds n k)) ->
  resolve_schemas order values = COk tt.
Proof.
  intros F pick chk order values Hp Ho H1 H2. apply (C35_resolution_exact_partial F pick chk order values Hp Ho).
  intros n ds Hin. split; [intros segs e; apply (H1 n ds segs e Hin)|intros m path t k; apply (H2 n ds m path t k Hin)].
Qed.
Print Assumptions C36_type_imports_accepted_partial.

(** The claim is false for imported modules: no project with a reference [module::Type] that
    is not local is ever accepted, whatever it imports. *)
Theorem C36_module_imports_refuted : forall (F : Type) (pick : list str -> nat) (chk : bool) order (values : list (str * pschema F)) nm ds m path n k,
  project pick chk values -> some_order order -> In (nm, ds) (definitions_of values) ->
  refers ds m path n k -> path <> [] -> ~ local_ok m path n k ->
  resolve_schemas order values <> COk tt.
Proof.
  intros F pick chk order values nm ds m path n k Hp Ho Hin Href Hne Hl H.
  pose proof (proj1 (C35_resolution_exact_partial F pick chk order values Hp Ho) H) as Hx0; clear H; rename Hx0 into H. destruct (H nm ds Hin) as [_ Hr].
  destruct (Hr m path n k Href) as [Hx|[Hx _]]; contradiction.
Qed.
Print Assumptions C36_module_imports_refuted.
(** [use shapes::flat; struct A { p: flat::Point }] with [mod flat { struct Point { x: u32 } }]
    in [shapes]: the import is fine, the type exists, the error says it does not. *)
Definition flat_user : list (pdef unit) :=
  [PImport [[115]; [102]] None; PStruct [] [] [65] None (FNamed (one (NField [] [112] (PExternal [[102]] [80] None) None)))].
Definition flat_project : list (str * pschema unit) :=
  [([109], PSchema [] flat_user); ([115], PSchema [] [PModule [] [102] [point]])].
Theorem C36_module_import_example_refuted :
  project pick0 false flat_project
  /\ import_ok (definitions_of flat_project) [[115]; [102]] None
  /\ refers flat_user flat_user [[102]] [80] 0
  /\ (exists target, module_at [PModule [] [102] [point]] [[102]] target /\ declares target [80] 0)
  /\ resolve_schemas same flat_project = CErr (ELocal (LMissingModule [102] [[109]])).
Proof.
  repeat split.
  - cbn. repeat constructor; cbn; intuition discriminate.
  - destruct H as [H|[H|[]]]; injection H as <- <-; vm_compute; reflexivity.
  - destruct H as [H|[H|[]]]; injection H as <- <-; intros d decl Hd Hi.
    + inversion Hd as [? Hin|? ? sub ? Hin Hw]; subst; repeat (destruct Hin as [Hin|Hin]; [try discriminate Hin; subst d|]); try contradiction.
      destruct Hi as [<-|[]]. intros e [He|[]]. discriminate.
    + inversion Hd as [? Hin|? ? sub ? Hin Hw]; subst.
      * destruct Hin as [<-|[]]. contradiction.
      * destruct Hin as [Hin|[]]. injection Hin as <- <- <-. inversion Hw as [? Hin|? ? sub ? Hin Hw']; subst; destruct Hin as [Hin|[]]; [|discriminate Hin].
        subst d. cbn in Hi. destruct Hi as [<-|[]]. intros e [He|[]]. discriminate.
  - destruct H as [H|[H|[]]]; injection H as <- <-; intros segs e Hin; repeat (destruct Hin as [Hin|Hin]; [try discriminate Hin; injection Hin as <- <-; discriminate|]); contradiction.
  - exists [115], [[102]], [PModule [] [102] [point]], [point]. split; [reflexivity|]. split; [right; left; reflexivity|].
    split; [econstructor; [left; reflexivity|constructor]|exact I].
  - exists [], (PStruct [] [] [65] None (FNamed (one (NField [] [112] (PExternal [[102]] [80] None) None)))), (PExternal [[102]] [80] None), None.
    split; [constructor|]. split; [cbn; tauto|]. split; [cbn; tauto|]. split; [apply part_self|].
    split; [reflexivity|intros [H _]; discriminate].
  - exists [point]. split; [econstructor; [left; reflexivity|constructor]|]. exists point. split; [left; reflexivity|]. split; reflexivity.
Qed.
Print Assumptions C36_module_import_example_refuted.

(** Imports of nested modules have no effect: [mod inner { use shapes::Point; struct A { p: Point } }]
    is rejected although [shapes] declares [Point]. *)
Theorem C36_nested_import_refuted :
  let inner : list (pdef unit) := [PImport [[115]] (Some [80]); PStruct [] [] [65] None (FNamed (one (NField [] [112] (ref [80]) None)))] in
  let values := [([109], PSchema [] [PModule [] [105] inner]); ([115], PSchema [] [point])] in
  (forall n s, In (n, s) values -> validate_schema pick0 false s = COk tt)
  /\ imported_ok (definitions_of values) inner [80] 0
  /\ resolve_schemas same values = CErr (ELocal (LMissingDefinition [80] [[109]; [105]])).
Proof.
  intros inner values. repeat split.
  - intros n s [H|[H|[]]]; injection H as <- <-; vm_compute; reflexivity.
  - exists [115], [], [point], [point]. split; [left; reflexivity|]. split; [right; left; reflexivity|]. split; [constructor|].
    exists point. split; [left; reflexivity|]. split; reflexivity.
Qed.
Print Assumptions C36_nested_import_refuted.
