(** Property theorems C49: accepted projects compile to working codecs. *)
From Verif Require Import Base Varint Wire Codec CodecSpec CodecProofs SchemaSpec Syntax Compiler CompilerSpec CompilerClaims CompilerProofs
  CompilerMore GenProofs Resolve ResolveSpec ResolveClaims ResolveProofs PropCodec PropCompiler PropResolve Lower LowerProofs ProjectSpec ProjectProofs.
Local Open Scope N_scope.

(** [outs] are the simplified schemas of the project. *)
Definition simplified {F} (chk : bool) (values : list (str * pschema F)) (outs : list (str * list (sdef F))) : Prop :=
  Forall2 (fun v o => fst o = fst v /\ simplify_schema chk (snd v) = Some (ps_comment (snd v), snd o)) values outs.

Lemma part_split x t : part anywhere x t ->
  part outside_non_zero x t \/ exists u, part anywhere (PNonZero u) t /\ part anywhere x u.
Proof.
  induction 1 as [|c t Hg Hc Hp IH]; [left; apply part_self|].
  destruct t as [p|t|k v|t|t|t|ts|t n|path name g];
    try (destruct IH as [IH|(u & H1 & H2)];
         [left; eapply part_child; [reflexivity|exact Hc|exact IH]
         |right; exists u; split; [eapply part_child; [reflexivity|exact Hc|exact H1]|exact H2]]; fail).
  destruct Hc as [<-|[]]. right. exists t. split; [apply part_self|exact Hp].
Qed.
Lemma assigns_u32 decl ids : u32_ids decl -> assigns decl ids -> forall i, In i ids -> i < 2 ^ 32.
Proof.
  intros Hu [Hlen Ha] i Hi. apply (In_nth _ _ 0) in Hi as (k & Hk & <-). rewrite Hlen in Hk. rewrite (Ha k Hk).
  destruct (nth k decl None) as [e|] eqn:E.
  - apply Hu. rewrite <- E. apply nth_In. exact Hk.
  - destruct k; [reflexivity|apply N.mod_lt; discriminate].
Qed.
Lemma at_within {F} (ds : list (pdef F)) at_ m d : module_at ds at_ m -> In d m -> within d ds.
Proof. induction 1 as [|ds c n sub at_ m H1 H2 IH]; intros Hd; [constructor; exact Hd|eapply within_module; [exact H1|apply IH; exact Hd]]. Qed.

(** Every project that is validated, resolved and compiled without a panic yields code in
    which every reference means a definition with that number of parameters, and every type
    is one the back end has code for, provided that nothing is wrong where the compiler does
    not look: inside of [non_zero], with imports used in nested modules, and with names that
    hide others.  If the field ids are also in range, the definitions are those the codec
    theorems are about. *)
Theorem C49_project_compiles_partial : forall (F : Type) (pick : list str -> nat) (chk : bool) order
    (values : list (str * pschema F)) (outs : list (str * list (sdef F))),
  project pick chk values -> some_order order -> resolve_schemas order values = COk tt ->
  simplified chk values outs -> (forall o, In o outs -> forallb generates (snd o) = true) ->
  (forall nm ds, In (nm, ds) (definitions_of values) -> hidden_ok ds /\ nested_local ds /\ unshadowed ds /\ prelude_free ds) ->
  exists E, lower_project outs = Some E /\ wf_schema (arities outs) E = true
    /\ ((forall nm ds, In (nm, ds) (definitions_of values) -> field_ids_fit ds) -> env_ok E = true).
Proof.
  intros F pick chk order values outs Hp Ho Hres Hsimp Hgen Hcond.
  pose proof (proj1 (C35_resolution_exact_partial F pick chk order values Hp Ho) Hres) as Hok.
  destruct (project_spec pick chk values Hp) as [Hnames Hall].
  assert (Hunique : forall n ds, In (n, ds) (definitions_of values) -> unique_names ds) by (intros n ds Hin; apply (Hall n ds Hin)).
  assert (Hcomp : Forall2 (fun v o => fst o = fst v /\ Forall2 compiled (snd v) (snd o)) (definitions_of values) outs).
  { assert (Hu : forall v, In v values -> u32_defs (ps_defs (snd v))) by (intros [n s] Hin; apply (proj2 Hp n s Hin)).
    clear - Hsimp Hu. unfold definitions_of. induction Hsimp as [|v o values outs [H1 H2] HF IH]; [constructor|]. cbn [map]. constructor.
    - cbn [fst snd]. split; [exact H1|]. apply (simplify_schema_compiled chk _ (ps_comment (snd v))); [apply Hu; left; reflexivity|exact H2].
    - apply IH. intros x Hx. apply Hu. right. exact Hx. }
  assert (Hg : forall n ds d, In (n, ds) (definitions_of values) -> within d ds -> generator_ok d).
  { intros n ds d Hin. unfold definitions_of in Hin. apply in_map_iff in Hin as ([n' s] & Heq & Hin). cbn in Heq. injection Heq as -> <-.
    destruct (Forall2_in_l _ _ _ _ Hsimp Hin) as (o & Hoin & H1 & H2). cbn [snd] in H2. revert d.
    apply (generates_schema chk s _ _ H2). apply Hgen. exact Hoin. }
  assert (Hval : forall n ds, In (n, ds) (definitions_of values) -> valid chk ds /\ u32_defs ds).
  { intros n ds Hin. unfold definitions_of in Hin. apply in_map_iff in Hin as ([n' s] & Heq & Hin). cbn in Heq. injection Heq as -> <-.
    destruct (proj2 Hp n s Hin) as (Hv & Hu & _). split; [|exact Hu]. apply (validate_schema_exact pick); assumption. }
  set (all := project_entries outs). set (us := project_uses outs). set (names := project_names outs). set (ar := arities outs).
  assert (Hpre : forall n ds, In (n, ds) (definitions_of values) -> prelude_free ds) by (intros n ds Hin; apply (Hcond n ds Hin)).
  assert (Hent : forall e, In e all -> exists D, lower_entry all us names e = Some D
    /\ forallb (all_ty (node_wf ar (length (e_params e)))) (def_types D) = true
    /\ ((forall nm ds, In (nm, ds) (definitions_of values) -> field_ids_fit ds) -> def_ok D = true)).
  { intros e He. destruct (all_sound _ _ Hcomp e He) as (nm & ds & at_ & m & d & Hv & Hm & Hd & Hof).
    destruct (Hcond nm ds Hv) as (Hhid & Hnest & Hunsh & _). destruct (Hval nm ds Hv) as [[_ Hvalid] Hu32].
    pose proof (at_within ds at_ m d Hm Hd) as Hw. destruct (Hvalid d Hw) as (_ & Hids & _ & Htup).
    destruct (lower_entry_ok _ _ Hnames Hunique Hcomp Hpre nm ds at_ m d e Hv Hm Hd Hof) as (D & HD & HWf & Hdef).
    - intros t Ht. assert (Hf : has_field ds m d t) by (split; [exists at_; exact Hm|split; [exact Hd|exact Ht]]).
      assert (Hment : mentioned d = flat_map field_types (field_lists d)) by (destruct d; try reflexivity; destruct Hof).
      split; [|split].
      + intros path n g Hpart. unfold ref_ok.
        destruct (in_dec (list_eq_dec N.eq_dec) n (parameters d)) as [Hin|Hnin].
        * destruct path as [|x path].
          -- destruct g as [ts|]; [|left; auto]. exfalso. exact (Hunsh m d t n ts Hf Hpart Hin).
          -- right. split; [intros [H _]; discriminate|].
             destruct (part_split _ _ Hpart) as [Hout|(u & Hu1 & Hu2)].
             ++ destruct (proj2 (Hok nm ds Hv) m (x :: path) n (args g)) as [Hl|[Hl _]]; [|exact (lookup_local _ _ Hnames Hunique Hcomp nm ds at_ m _ n _ Hv Hm Hl)|discriminate].
                exists at_, d, t, g. split; [exact Hm|]. split; [exact Hd|]. split; [exact Ht|]. split; [exact Hout|]. split; [reflexivity|].
                intros [H _]. discriminate.
             ++ destruct (Hhid m d t u Hf Hu1) as [_ Hh]. destruct (Hh _ _ _ Hu2) as [(H & _)|Hl]; [discriminate|].
                exact (lookup_local _ _ Hnames Hunique Hcomp nm ds at_ m _ n _ Hv Hm Hl).
        * right. split; [intros [_ H]; contradiction|].
          destruct (part_split _ _ Hpart) as [Hout|(u & Hu1 & Hu2)].
          -- assert (Href : refers ds m path n (args g)).
             { exists at_, d, t, g. split; [exact Hm|]. split; [exact Hd|]. split; [exact Ht|]. split; [exact Hout|]. split; [reflexivity|].
               intros (_ & _ & H). contradiction. }
             destruct (proj2 (Hok nm ds Hv) m path n (args g) Href) as [Hl|[-> Hl]]; [exact (lookup_local _ _ Hnames Hunique Hcomp nm ds at_ m _ n _ Hv Hm Hl)|].
             destruct at_ as [|x at_].
             ++ inversion Hm; subst m. exact (lookup_imported _ _ Hnames Hunique Hcomp nm ds n _ Hv Hl).
             ++ apply (lookup_local _ _ Hnames Hunique Hcomp nm ds (x :: at_) m _ n _ Hv Hm). apply Hnest; [exact Href|].
                apply (module_at_size ds (x :: at_)); [exact Hm|discriminate].
          -- destruct (Hhid m d t u Hf Hu1) as [_ Hh]. destruct (Hh _ _ _ Hu2) as [(_ & _ & H)|Hl]; [contradiction|].
             exact (lookup_local _ _ Hnames Hunique Hcomp nm ds at_ m _ n _ Hv Hm Hl).
      + pose proof (Hg nm ds d Hv Hw) as Hgd. rewrite <- Hment in Ht.
        destruct d; try destruct Hof; apply (Hgd t Ht).
      + intros ts Hpart. destruct (part_split _ _ Hpart) as [Hout|(u & Hu1 & Hu2)].
        * rewrite <- Hment in Ht. exact (Htup t Ht ts Hout).
        * destruct (Hhid m d t u Hf Hu1) as [Hh _]. exact (Hh ts Hu2).
    - intros decl ids Hin Ha. apply (Hids decl ids Hin Ha).
    - exists D. split; [exact HD|]. split; [exact HWf|]. intros Hfit. apply Hdef.
      + intros fs ids i Hin Ha Hi. exact (Hfit nm ds Hv d fs ids i Hw Hin Ha Hi).
      + intros decl ids i Hin Ha. apply (assigns_u32 decl ids); [apply (Hu32 d decl Hw Hin)|exact Ha]. }
  unfold lower_project, wf_schema, env_ok. fold all us names ar.
  assert (H : exists E, all_opt (lower_entry all us names) all = Some E
    /\ all_defs (node_wf ar) (map (fun e => length (e_params e)) all) E = true
    /\ ((forall nm ds, In (nm, ds) (definitions_of values) -> field_ids_fit ds) -> forallb def_ok E = true)).
  { revert Hent. generalize (lower_entry all us names) as f. intros f. induction all as [|e l IH]; intros Hent.
    - exists []. repeat split.
    - destruct (Hent e (or_introl eq_refl)) as (D & HD & HW & Hdef).
      destruct IH as (E & HE & HWE & HdE); [intros x Hx; apply Hent; right; exact Hx|].
      exists (D :: E). cbn [all_opt map all_defs forallb]. rewrite HD, HE, HW, HWE. split; [reflexivity|]. split; [reflexivity|].
      intros Hfit. rewrite (Hdef Hfit), (HdE Hfit). reflexivity. }
  exact H.
Qed.
Print Assumptions C49_project_compiles_partial.

(** The codec of such a project round trips (with the conditions of C14). *)
Theorem C49_project_roundtrip_partial : forall (F : Type) (pick : list str -> nat) (chk : bool) order
    (values : list (str * pschema F)) (outs : list (str * list (sdef F))),
  project pick chk values -> some_order order -> resolve_schemas order values = COk tt ->
  simplified chk values outs -> (forall o, In o outs -> forallb generates (snd o) = true) ->
  (forall nm ds, In (nm, ds) (definitions_of values) ->
     hidden_ok ds /\ nested_local ds /\ unshadowed ds /\ prelude_free ds /\ field_ids_fit ds) ->
  exists E, lower_project outs = Some E /\
    forall root t v rest, typed E t v = true -> prefix_ok E t v = true -> lenN (encode E root t v) < 2 ^ 64 ->
      decode E root t (encode E root t v ++ rest) = Ok (v, rest).
Proof.
  intros F pick chk order values outs Hp Ho Hres Hsimp Hgen Hcond.
  destruct (C49_project_compiles_partial F pick chk order values outs Hp Ho Hres Hsimp Hgen) as (E & HE & _ & Hok).
  { intros nm ds Hin. destruct (Hcond nm ds Hin) as (H1 & H2 & H3 & H4 & _). auto. }
  exists E. split; [exact HE|]. intros root t v rest. apply C14_roundtrip_partial. apply Hok. intros nm ds Hin. apply (Hcond nm ds Hin).
Qed.
Print Assumptions C49_project_roundtrip_partial.

(** * Concrete projects.  Enumerations used to check the hypotheses. *)
Section Enumerate.
Context {F : Type}.
Fixpoint below_list (d : pdef F) : list (pdef F) :=
  d :: match d with PModule _ _ ds => flat_map below_list ds | _ => [] end.
Lemma within_list d (ds : list (pdef F)) : within d ds -> In d (flat_map below_list ds).
Proof.
  induction 1 as [ds H|c n sub ds H H' IH]; apply in_flat_map.
  - exists d. split; [exact H|]. destruct d; left; reflexivity.
  - exists (PModule c n sub). split; [exact H|]. right. exact IH.
Qed.
Fixpoint modules_of (d : pdef F) : list (list (pdef F)) :=
  match d with PModule _ _ ds => ds :: flat_map modules_of ds | _ => [] end.
Lemma module_list ds at_ m : module_at ds at_ m -> In m (ds :: flat_map modules_of ds).
Proof.
  induction 1 as [ds|ds c n sub at_ m H H' IH]; [left; reflexivity|]. right. apply in_flat_map.
  exists (PModule c n sub). split; [exact H|]. exact IH.
Qed.
Definition u32_check (ds : list (pdef F)) : bool :=
  forallb (fun d => forallb (forallb (fun o => match o with Some i => i <? 2 ^ 32 | None => true end)) (id_scopes d)) (flat_map below_list ds).
Lemma u32_check_ok ds : u32_check ds = true -> u32_defs ds.
Proof.
  intros H d decl Hd Hin e He. unfold u32_check in H. rewrite forallb_forall in H. specialize (H d (within_list _ _ Hd)).
  rewrite forallb_forall in H. specialize (H decl Hin). rewrite forallb_forall in H. specialize (H _ He). apply N.ltb_lt. exact H.
Qed.
Definition rooted_check (ds : list (pdef F)) : bool := forallb (fun d => match d with PImport [] _ => false | _ => true end) ds.
Lemma rooted_check_ok ds : rooted_check ds = true -> imports_rooted ds.
Proof. intros H segs e Hin ->. unfold rooted_check in H. rewrite forallb_forall in H. specialize (H _ Hin). discriminate. Qed.
Definition project_check (pick : list str -> nat) (chk : bool) (values : list (str * pschema F)) : bool :=
  nodupb str_eqb (map fst values) &&
  forallb (fun v => match validate_schema pick chk (snd v) with COk _ => true | _ => false end
                    && u32_check (ps_defs (snd v)) && rooted_check (ps_defs (snd v))) values.
Lemma project_check_ok pick chk values : project_check pick chk values = true -> project pick chk values.
Proof.
  intros H. apply andb_true_iff in H as [H1 H2]. split; [revert H1; apply nodupb_NoDup; apply str_eqb_eq|].
  intros n s Hin. rewrite forallb_forall in H2. specialize (H2 _ Hin). cbn [snd] in H2. rewrite !andb_true_iff in H2. destruct H2 as [[H2 H3] H4].
  split; [destruct (validate_schema pick chk s) as [[]| |]; [reflexivity|discriminate|discriminate]|].
  split; [apply u32_check_ok; exact H3|apply rooted_check_ok; exact H4].
Qed.
End Enumerate.
Fixpoint parts (t : pty) : list pty :=
  t :: match t with
       | PPrim _ => []
       | PVec t | PHashSet t | POption t | PNonZero t | PArray t _ => parts t
       | PHashMap k v => parts k ++ parts v
       | PTuple (Punct l x _) | PExternal _ _ (Some (Punct l x _)) => flat_map parts l ++ parts x
       | PExternal _ _ None => []
       end.
Lemma part_list x t : part anywhere x t -> In x (parts t).
Proof.
  induction 1 as [|c t Hg Hc Hp IH]; [destruct x; left; reflexivity|].
  assert (Hlist : forall l y, In c (l ++ [y]) -> In x (flat_map parts l ++ parts y)).
  { intros l y Hin. apply in_or_app. apply in_app_or in Hin as [Hin|[<-|[]]]; [left; apply in_flat_map; exists c; auto|right; exact IH]. }
  destruct t as [p|t|k v|t|t|t|[l y b]|t n|path name [[l y b]|]]; cbn [children] in Hc; cbn [parts]; right.
  - destruct Hc.
  - destruct Hc as [<-|[]]; exact IH.
  - apply in_or_app. destruct Hc as [<-|[<-|[]]]; auto.
  - destruct Hc as [<-|[]]; exact IH.
  - destruct Hc as [<-|[]]; exact IH.
  - destruct Hc as [<-|[]]; exact IH.
  - apply Hlist. exact Hc.
  - destruct Hc as [<-|[]]; exact IH.
  - apply Hlist. exact Hc.
  - destruct Hc.
Qed.

(** All fields of a schema with their module and definition. *)
Definition fields_of {F} (ds : list (pdef F)) : list (list (pdef F) * pdef F * pty) :=
  flat_map (fun m => flat_map (fun d => map (fun t => (m, d, t)) (flat_map field_types (field_lists d))) m) (ds :: flat_map modules_of ds).
Lemma has_field_list {F} (ds m : list (pdef F)) d t : has_field ds m d t -> In (m, d, t) (fields_of ds).
Proof.
  intros ([at_ Hm] & Hd & Ht). apply in_flat_map. exists m. split; [eapply module_list; exact Hm|].
  apply in_flat_map. exists d. split; [exact Hd|]. apply in_map. exact Ht.
Qed.

(** schema m:  use s::P;
               mod i { struct K<T>(T @3, option<T>) }
               struct N { a: P, b: vec<i::K<u8>>, c: non_zero<vec<i::K<u8>>> @7 }
    schema s:  struct P { x: u32 }                                             *)
Definition inner_k : pdef unit := PStruct [] [] [75] (Some (one [84]))
  (FUnnamed (Punct [UField (ref [84]) (Some 3)] (UField (POption (ref [84])) None) false)).
Definition outer_n : pdef unit := PStruct [] [] [78] None (FNamed (Punct
  [NField [] [97] (ref [80]) None; NField [] [98] (PVec (PExternal [[105]] [75] (Some (one (PPrim PrU8))))) None]
  (NField [] [99] (PNonZero (PVec (PExternal [[105]] [75] (Some (one (PPrim PrU8)))))) (Some 7)) true)).
Definition good_m : list (pdef unit) := [PImport [[115]] (Some [80]); PModule [] [105] [inner_k]; outer_n].
Definition good : list (str * pschema unit) := [([109], PSchema [] good_m); ([115], PSchema [] [PropResolve.point])].
Definition outs_of (values : list (str * pschema unit)) : list (str * list (sdef unit)) :=
  map (fun v => (fst v, match simplify_schema true (snd v) with Some (_, o) => o | None => [] end)) values.

Example C49_ex :
  project pick0 true good /\ resolve_schemas same good = COk tt /\ simplified true good (outs_of good)
  /\ forallb (fun o => forallb generates (snd o)) (outs_of good) = true
  /\ (forall nm ds, In (nm, ds) (definitions_of good) -> hidden_ok ds /\ nested_local ds /\ unshadowed ds /\ prelude_free ds /\ field_ids_fit ds)
  /\ lower_project (outs_of good) = Some
      [DStruct (Fields KUnnamed [Field [110; 48] 3 (TParam 0); Field [110; 49] 4 (TOption (TParam 0))]);
       DStruct (Fields KNamed [Field [97] 1 (TExt 2 []); Field [98] 2 (TVec (TExt 0 [TU8])); Field [99] 7 (TNonZero (TVec (TExt 0 [TU8])))]);
       DStruct (Fields KNamed [Field [120] 1 (TUInt W32)])].
Proof.
  split; [apply project_check_ok; reflexivity|]. split; [reflexivity|]. split; [repeat constructor|]. split; [reflexivity|].
  split; [|reflexivity].
  intros nm ds [H|[H|[]]]; injection H as <- <-; cbn [ps_defs].
  - assert (Hk : local_ok good_m [[105]] [75] 1).
    { exists [inner_k]. split; [econstructor; [right; left; reflexivity|constructor]|]. exists inner_k. split; [left; reflexivity|]. split; reflexivity. }
    split; [|split; [|split; [|split]]].
    + intros m d t u Hf Hu. apply has_field_list in Hf. apply part_list in Hu. cbn in Hf.
      repeat (destruct Hf as [Hf|Hf]; [injection Hf as <- <- <-; cbn in Hu; repeat (destruct Hu as [Hu|Hu]; [try discriminate Hu|]); try contradiction|]); [|contradiction].
      injection Hu as <-. split.
      * intros ts Hts. apply part_list in Hts. cbn in Hts. repeat (destruct Hts as [Hts|Hts]; [discriminate Hts|]). contradiction.
      * intros path n g Hg. apply part_list in Hg. cbn in Hg. repeat (destruct Hg as [Hg|Hg]; [try discriminate Hg|]); [|contradiction].
        injection Hg as <- <- <-. right. exact Hk.
    + intros m path n k (at_ & d & t & g & Hm & Hd & Ht & Hp & Hk' & Hno) Hne.
      assert (Hf : has_field good_m m d t) by (split; [exists at_; exact Hm|split; assumption]).
      apply has_field_list in Hf. assert (Hp' : part anywhere (PExternal path n g) t).
      { clear - Hp. induction Hp as [|c t Hg Hc Hp IH]; [apply part_self|]. eapply part_child; [reflexivity|exact Hc|exact IH]. }
      apply part_list in Hp'. cbn in Hf.
      repeat (destruct Hf as [Hf|Hf]; [injection Hf as <- <- <-; try (destruct Hne; reflexivity);
         cbn in Hp'; repeat (destruct Hp' as [Hp'|Hp']; [try discriminate Hp'|]); try contradiction; injection Hp' as <- <- <-;
         destruct Hno; cbn; tauto|]). contradiction.
    + intros m d t n ts Hf Hp. apply has_field_list in Hf. apply part_list in Hp. cbn in Hf.
      repeat (destruct Hf as [Hf|Hf]; [injection Hf as <- <- <-; cbn in Hp; repeat (destruct Hp as [Hp|Hp]; [try discriminate Hp|]); try contradiction|]); try contradiction;
        intros [].
    + intros at_ m n Hm Hn. apply module_list in Hm. cbn in Hn.
      destruct Hm as [<-|[<-|[]]]; repeat (destruct Hn as [<-|Hn]; [split; [cbn; intuition discriminate|intros d Hd; cbn in Hd;
         repeat (destruct Hd as [<-|Hd]; [cbn; intuition discriminate|]); contradiction]|]); contradiction.
    + intros d fs ids i Hd Hfs Ha Hi. apply within_list in Hd. rewrite (assigns_unique _ _ _ Ha (assigns_ids_from _)) in Hi. cbn in Hd.
      repeat (destruct Hd as [<-|Hd]; [cbn in Hfs; repeat (destruct Hfs as [<-|Hfs];
         [cbn in Hi; repeat (destruct Hi as [<-|Hi]; [split; reflexivity|]); contradiction|]); contradiction|]). contradiction.
  - split; [|split; [|split; [|split]]].
    + intros m d t u Hf Hu. apply has_field_list in Hf. apply part_list in Hu. cbn in Hf.
      destruct Hf as [Hf|[]]. injection Hf as <- <- <-. cbn in Hu. destruct Hu as [Hu|[]]. discriminate.
    + intros m path n k (at_ & d & t & g & Hm & Hd & Ht & Hp & Hk' & Hno) Hne. apply module_list in Hm. destruct Hm as [<-|[]]. contradiction.
    + intros m d t n ts Hf Hp. apply has_field_list in Hf. apply part_list in Hp. cbn in Hf.
      destruct Hf as [Hf|[]]. injection Hf as <- <- <-. cbn in Hp. destruct Hp as [Hp|[]]. discriminate.
    + intros at_ m n Hm Hn. apply module_list in Hm. cbn in Hn.
      destruct Hm as [<-|[]]; repeat (destruct Hn as [<-|Hn]; [split; [cbn; intuition discriminate|intros d Hd; cbn in Hd;
         repeat (destruct Hd as [<-|Hd]; [cbn; intuition discriminate|]); contradiction]|]); contradiction.
    + intros d fs ids i Hd Hfs Ha Hi. apply within_list in Hd. rewrite (assigns_unique _ _ _ Ha (assigns_ids_from _)) in Hi. cbn in Hd.
      repeat (destruct Hd as [<-|Hd]; [cbn in Hfs; repeat (destruct Hfs as [<-|Hfs];
         [cbn in Hi; repeat (destruct Hi as [<-|Hi]; [split; reflexivity|]); contradiction|]); contradiction|]). contradiction.
Qed.

(** Without the conditions the claim is false.  Each of these projects passes validation and
    resolution and makes no back end panic, but the code does not compile: *)
Definition accepted (values : list (str * pschema unit)) : Prop :=
  project pick0 true values /\ resolve_schemas same values = COk tt
  /\ simplified true values (outs_of values) /\ forallb (fun o => forallb generates (snd o)) (outs_of values) = true.
Definition field1 (n : str) (t : pty) : pdef unit := PStruct [] [] n None (FUnnamed (one (UField t None))).

(** [use s::P; mod i { struct A(P); }]: the import is not in scope in the module; *)
Theorem C49_nested_import_refuted :
  let values := [([109], PSchema [] [PImport [[115]] (Some [80]); PModule [] [105] [field1 [65] (ref [80])]]);
                 ([115], PSchema [] [PropResolve.point])] in
  accepted values /\ lower_project (outs_of values) = None.
Proof. split; [|reflexivity]. split; [apply project_check_ok; reflexivity|]. split; [reflexivity|]. split; [repeat constructor|reflexivity]. Qed.
Print Assumptions C49_nested_import_refuted.

(** [use s::P; mod i { use s::P; struct A(P); }]: nor does importing it again in the module help, as the path of an import starts at the parent; *)
Theorem C49_inner_import_refuted :
  let values := [([109], PSchema [] [PImport [[115]] (Some [80]); PModule [] [105] [PImport [[115]] (Some [80]); field1 [65] (ref [80])]]);
                 ([115], PSchema [] [PropResolve.point])] in
  accepted values /\ lower_project (outs_of values) = None.
Proof. split; [|reflexivity]. split; [apply project_check_ok; reflexivity|]. split; [reflexivity|]. split; [repeat constructor|reflexivity]. Qed.
Print Assumptions C49_inner_import_refuted.

(** [struct A(non_zero<vec<Missing>>);] *)
Theorem C49_non_zero_reference_refuted :
  let values := [([109], PSchema [] [field1 [65] (PNonZero (PVec (ref [77])))])] in
  accepted values /\ lower_project (outs_of values) = None.
Proof. split; [|reflexivity]. split; [apply project_check_ok; reflexivity|]. split; [reflexivity|]. split; [repeat constructor|reflexivity]. Qed.
Print Assumptions C49_non_zero_reference_refuted.

(** [struct Option(u8); struct A(option<u32>);]: [Option<u32>] means the schema's own type; *)
Theorem C49_std_name_refuted :
  let values := [([109], PSchema [] [field1 [79; 112; 116; 105; 111; 110] (PPrim PrU8); field1 [65] (POption (PPrim PrU32))])] in
  accepted values /\ lower_project (outs_of values) = None.
Proof. split; [|reflexivity]. split; [apply project_check_ok; reflexivity|]. split; [reflexivity|]. split; [repeat constructor|reflexivity]. Qed.
Print Assumptions C49_std_name_refuted.

(** [struct B<K>(K); struct A<B>(B, B<u8>);]: a parameter takes no arguments. *)
Theorem C49_shadowed_type_refuted :
  let b : pdef unit := PStruct [] [] [66] (Some (one [75])) (FUnnamed (one (UField (ref [75]) None))) in
  let a : pdef unit := PStruct [] [] [65] (Some (one [66]))
      (FUnnamed (Punct [UField (ref [66]) None] (UField (PExternal [] [66] (Some (one (PPrim PrU8)))) None) false)) in
  let values := [([109], PSchema [] [b; a])] in
  accepted values /\ lower_project (outs_of values) = None.
Proof. split; [|reflexivity]. split; [apply project_check_ok; reflexivity|]. split; [reflexivity|]. split; [repeat constructor|reflexivity]. Qed.
Print Assumptions C49_shadowed_type_refuted.
