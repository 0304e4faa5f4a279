(** Names in the generated code of an accepted project (C49). *)
From Verif Require Import Base Varint Wire Codec CodecSpec CodecProofs SchemaSpec Syntax Compiler CompilerSpec CompilerClaims CompilerProofs
  CompilerMore GenProofs Resolve ResolveSpec ResolveClaims ResolveProofs PropCompiler PropResolve Lower LowerProofs ProjectSpec.
Local Open Scope N_scope.

Lemma path_eqb_eq a : forall b, path_eqb a b = true <-> a = b.
Proof.
  induction a as [|x a IH]; intros [|y b]; cbn [path_eqb]; try (split; (discriminate || reflexivity)).
  rewrite andb_true_iff, str_eqb_eq, IH. split; [intros [-> ->]; reflexivity|intros H; injection H; auto].
Qed.

(** * [find_entry] *)
Lemma find_entry_some p n l i : find_entry p n l = Some i ->
  exists e, nth_error l i = Some e /\ e_path e = p /\ e_name e = n.
Proof.
  revert i. induction l as [|e l IH]; intros i H; cbn [find_entry] in H; [discriminate|].
  destruct (path_eqb (e_path e) p && str_eqb (e_name e) n) eqn:E.
  - injection H as <-. apply andb_true_iff in E as [E1 E2]. apply path_eqb_eq in E1. apply str_eqb_eq in E2. exists e. auto.
  - destruct (find_entry p n l) as [j|]; [|discriminate]. injection H as <-. apply IH. reflexivity.
Qed.
Lemma find_entry_in p n l e : In e l -> e_path e = p -> e_name e = n -> exists i, find_entry p n l = Some i.
Proof.
  intros Hin <- <-. induction l as [|x l IH]; [destruct Hin|]. cbn [find_entry].
  destruct (path_eqb (e_path x) (e_path e) && str_eqb (e_name x) (e_name e)) eqn:E; [eauto|].
  destruct Hin as [->|Hin].
  - rewrite str_eqb_refl, andb_true_r in E. assert (path_eqb (e_path e) (e_path e) = true) by (apply path_eqb_eq; reflexivity). congruence.
  - destruct (IH Hin) as [i ->]. cbn. eauto.
Qed.

(** * Entries of a compiled schema *)
Section Entries.
Context {F : Type}.
Implicit Types (ds m : list (pdef F)) (os : list (sdef F)).

Definition names_g (g : option generics) : list str := match g with Some g => p_values g | None => [] end.
Definition entry_of (path : list str) (d : pdef F) (e : entry) : Prop :=
  match d with
  | PStruct _ _ n g fs => exists fs', compiled_fields fs fs' /\ e = Entry path n (names_g g) (BStruct fs')
  | PEnum _ _ n g vs => exists vs', assigns (variant_decls vs) (map sv_id vs')
      /\ Forall2 (fun v s => sv_name s = pv_name v /\ sv_comment s = pv_comment v
                        /\ compiled_fields (pv_fields v) (sv_fields s)) (p_values vs) vs'
      /\ e = Entry path n (names_g g) (BEnum vs')
  | _ => False
  end.

Lemma entries_module path c n os : entries path (SModule c n os) = flat_map (entries (path ++ [n])) os.
Proof. reflexivity. Qed.

Lemma Forall2_in_r {A B} (R : A -> B -> Prop) l l' b : Forall2 R l l' -> In b l' -> exists a, In a l /\ R a b.
Proof. induction 1 as [|x y l l' H HF IH]; intros []; [subst; exists x; split; [left; reflexivity|exact H]|]. destruct IH as (a & Ha & HR); [assumption|]. exists a. split; [right; exact Ha|exact HR]. Qed.
Lemma Forall2_in_l {A B} (R : A -> B -> Prop) l l' a : Forall2 R l l' -> In a l -> exists b, In b l' /\ R a b.
Proof. induction 1 as [|x y l l' H HF IH]; intros []; [subst; exists y; split; [left; reflexivity|exact H]|]. destruct IH as (b & Hb & HR); [assumption|]. exists b. split; [right; exact Hb|exact HR]. Qed.

Lemma entries_sound ds : forall os path e, Forall2 compiled ds os -> In e (flat_map (entries path) os) ->
  exists at_ m d, module_at ds at_ m /\ In d m /\ entry_of (path ++ at_) d e.
Proof.
  induction ds as [ds IH] using defs_ind. intros os path e HF Hin.
  apply in_flat_map in Hin as (o & Ho & He). destruct (Forall2_in_r _ _ _ _ HF Ho) as (d & Hd & Hc).
  inversion Hc; subst.
  - rewrite entries_module in He. destruct (IH _ _ _ Hd _ _ _ H He) as (at_ & m & x & Hm & Hx & Hof).
    exists (n :: at_), m, x. split; [econstructor; eassumption|]. split; [exact Hx|]. rewrite <- app_assoc in Hof. exact Hof.
  - destruct He as [<-|[]]. exists [], ds, (PStruct c a n g fs). split; [constructor|]. split; [exact Hd|]. rewrite app_nil_r. exists fs'. auto.
  - destruct He as [<-|[]]. exists [], ds, (PEnum c a n g vs). split; [constructor|]. split; [exact Hd|]. rewrite app_nil_r. exists vs'. auto.
  - destruct He.
  - destruct He.
  - destruct He.
Qed.
Definition is_type (d : pdef F) (n : str) (k : nat) : Prop :=
  match d with PStruct _ _ n' g _ | PEnum _ _ n' g _ => n' = n /\ arity g = k | _ => False end.
Lemma entries_complete ds at_ m : module_at ds at_ m -> forall os path d n k, Forall2 compiled ds os -> In d m -> is_type d n k ->
  exists e, In e (flat_map (entries path) os) /\ entry_of (path ++ at_) d e.
Proof.
  induction 1 as [ds|ds c nm sub at_ m Hin Hm IH]; intros os path d n k HF Hd Hk.
  - destruct (Forall2_in_l _ _ _ _ HF Hd) as (o & Ho & Hc).
    inversion Hc; subst; try destruct Hk.
    + exists (Entry path n0 (names_g g) (BStruct fs')). rewrite app_nil_r. split; [apply in_flat_map; exists (SStruct c n0 (match g with Some g => p_values g | None => [] end) fs'); split; [exact Ho|left; reflexivity]|].
      exists fs'. auto.
    + exists (Entry path n0 (names_g g) (BEnum vs')). rewrite app_nil_r. split; [apply in_flat_map; exists (SEnum c n0 (match g with Some g => p_values g | None => [] end) vs'); split; [exact Ho|left; reflexivity]|].
      exists vs'. auto.
  - destruct (Forall2_in_l _ _ _ _ HF Hin) as (o & Ho & Hc). inversion Hc; subst.
    destruct (IH ds' (path ++ [nm]) d n k) as (e & He & Hof); try assumption.
    exists e. rewrite <- app_assoc in Hof. split; [|exact Hof]. apply in_flat_map. exists (SModule c nm ds'). split; [exact Ho|]. exact He.
Qed.
Lemma entry_of_facts p d e : entry_of p d e -> e_path e = p /\ is_type d (e_name e) (length (e_params e)) /\ e_params e = parameters d.
Proof.
  destruct d as [c n sub|c a n g fs|c a n g vs|c n g t|c n t v|sg el]; cbn [entry_of]; intros H; try destruct H.
  - destruct H as [_ ->]. cbn. split; [reflexivity|]. split; [split; reflexivity|]. destruct g; reflexivity.
  - destruct H as (_ & _ & ->). cbn. split; [reflexivity|]. split; [split; reflexivity|]. destruct g; reflexivity.
Qed.

(** Names and imports. *)
Lemma names_sound ds : forall os path p n, Forall2 compiled ds os -> In (p, n) (flat_map (names_of path) os) ->
  exists at_ m, module_at ds at_ m /\ p = path ++ at_ /\ (In n (introduced m) \/ n = []).
Proof.
  induction ds as [ds IH] using defs_ind. intros os path p nm HF Hin.
  apply in_flat_map in Hin as (o & Ho & He). destruct (Forall2_in_r _ _ _ _ HF Ho) as (d & Hd & Hc).
  assert (Hhere : forall x, In x (introduces d) \/ x = [] -> (path, x) = (p, nm) ->
     exists at_ m, module_at ds at_ m /\ p = path ++ at_ /\ (In nm (introduced m) \/ nm = [])).
  { intros x Hx Heq. injection Heq as <- <-. exists [], ds. split; [constructor|]. rewrite app_nil_r. split; [reflexivity|].
    destruct Hx as [Hx|Hx]; [left; eapply in_introduced; eassumption|right; exact Hx]. }
  inversion Hc; subst; cbn [names_of] in He.
  - destruct He as [He|He]; [apply (Hhere n); [left; left; reflexivity|exact He]|].
    destruct (IH _ _ _ Hd _ _ _ _ H He) as (at_ & m & Hm & Hp & Hn).
    exists (n :: at_), m. split; [econstructor; eassumption|]. split; [|exact Hn]. rewrite Hp, <- app_assoc. reflexivity.
  - destruct He as [He|[]]; apply (Hhere n); [left; left; reflexivity|exact He].
  - destruct He as [He|[]]; apply (Hhere n); [left; left; reflexivity|exact He].
  - destruct He as [He|[]]; apply (Hhere n); [left; left; reflexivity|exact He].
  - destruct He.
  - destruct e as [n|]; destruct He as [He|[]].
    + apply (Hhere n); [left; left; reflexivity|exact He].
    + apply (Hhere (last segs [])); [|exact He]. destruct segs as [|x segs]; [right; reflexivity|left; left; reflexivity].
Qed.
Lemma uses_sound ds : forall os path p segs el, Forall2 compiled ds os -> In (p, segs, el) (flat_map (uses_of path) os) ->
  exists at_ m, module_at ds at_ m /\ p = path ++ at_ /\ In (PImport segs el) m.
Proof.
  induction ds as [ds IH] using defs_ind. intros os path p segs el HF Hin.
  apply in_flat_map in Hin as (o & Ho & He). destruct (Forall2_in_r _ _ _ _ HF Ho) as (d & Hd & Hc).
  inversion Hc; subst; cbn [uses_of] in He; try (destruct He; fail).
  - destruct (IH _ _ _ Hd _ _ _ _ _ H He) as (at_ & m & Hm & Hp & Hn).
    exists (n :: at_), m. split; [econstructor; eassumption|]. split; [|exact Hn]. rewrite Hp, <- app_assoc. reflexivity.
  - destruct He as [He|[]]. injection He as <- <- <-. exists [], ds. split; [constructor|]. rewrite app_nil_r. auto.
Qed.
Lemma uses_complete ds os path segs el : Forall2 compiled ds os -> In (PImport segs el) ds -> In (path, segs, el) (flat_map (uses_of path) os).
Proof.
  intros HF Hin. destruct (Forall2_in_l _ _ _ _ HF Hin) as (o & Ho & Hc). inversion Hc; subst.
  apply in_flat_map. exists (SImport segs el). split; [exact Ho|left; reflexivity].
Qed.

(** One definition per name. *)
Lemma is_type_unique m d d' n k k' : NoDup (introduced m) -> In d m -> In d' m -> is_type d n k -> is_type d' n k' -> k = k'.
Proof.
  intros Hn Hd Hd' Hk Hk'.
  assert (Hi : In n (introduces d)) by (destruct d; try destruct Hk; subst; left; reflexivity).
  assert (Hi' : In n (introduces d')) by (destruct d'; try destruct Hk'; subst; left; reflexivity).
  assert (d = d').
  { induction m as [|x m IH]; [destruct Hd|]. rewrite introduced_cons in Hn. destruct Hd as [->|Hd], Hd' as [Hd'|Hd'].
    - exact Hd'.
    - exfalso. apply (NoDup_app_disj _ _ n Hn Hi). eapply in_introduced; eassumption.
    - subst x. exfalso. apply (NoDup_app_disj _ _ n Hn Hi'). eapply in_introduced; eassumption.
    - apply IH; try assumption. apply NoDup_app_r in Hn. exact Hn. }
  subst d'. destruct d; try destruct Hk; destruct Hk'; congruence.
Qed.

Lemma module_at_size ds at_ m : module_at ds at_ m -> at_ <> [] -> m <> ds.
Proof.
  set (sz := fix sz (d : pdef F) : nat := match d with PModule _ _ l => S (fold_right (fun x a => sz x + a)%nat O l) | _ => 1%nat end).
  set (szs := fun l : list (pdef F) => fold_right (fun x a => sz x + a)%nat O l).
  assert (Hin : forall d l, In d l -> (sz d <= szs l)%nat).
  { intros d l. induction l as [|x l IH]; intros []; subst; cbn [szs fold_right]; [lia|]. specialize (IH H). unfold szs in IH. lia. }
  assert (Hlt : forall ds at_ m, module_at ds at_ m -> (at_ = [] \/ szs m < szs ds)%nat /\ (szs m <= szs ds)%nat).
  { clear - Hin. induction 1 as [ds|ds c n sub at_ m H1 H2 IH]; [split; [left; reflexivity|lia]|].
    apply Hin in H1. change (sz (PModule c n sub)) with (S (szs sub)) in H1. destruct IH as [_ IH]. split; [right|]; lia. }
  intros H Hne Heq. destruct (Hlt _ _ _ H) as [[Hx|Hx] _]; [contradiction|]. subst m. lia.
Qed.
End Entries.

(** * A whole project *)
Section Project.
Context {F : Type}.
Variables (values : list (str * list (pdef F))) (outs : list (str * list (sdef F))).
Hypothesis Hnames : NoDup (map fst values).
Hypothesis Hunique : forall n ds, In (n, ds) values -> unique_names ds.
Hypothesis Hcomp : Forall2 (fun v o => fst o = fst v /\ Forall2 compiled (snd v) (snd o)) values outs.

Let all := project_entries outs.
Let us := project_uses outs.
Let names := project_names outs.
Let ar := arities outs.

Lemma all_sound e : In e all -> exists nm ds at_ m d, In (nm, ds) values /\ module_at ds at_ m /\ In d m /\ entry_of (nm :: at_) d e.
Proof.
  intros H. apply in_flat_map in H as ([nm os] & Ho & He). destruct (Forall2_in_r _ _ _ _ Hcomp Ho) as ([nm' ds] & Hv & Hn & HF).
  cbn in Hn, HF. subst nm'. destruct (entries_sound ds os [nm] e HF He) as (at_ & m & d & H1 & H2 & H3).
  exists nm, ds, at_, m, d. auto.
Qed.
Lemma all_complete nm ds at_ m d n k : In (nm, ds) values -> module_at ds at_ m -> In d m -> is_type d n k ->
  exists e, In e all /\ entry_of (nm :: at_) d e.
Proof.
  intros Hv Hm Hd Hk. destruct (Forall2_in_l _ _ _ _ Hcomp Hv) as ([nm' os] & Ho & Hn & HF). cbn in Hn, HF. subst nm'.
  destruct (entries_complete ds at_ m Hm os [nm] d n k HF Hd Hk) as (e & He & Hof). exists e. split; [|exact Hof].
  apply in_flat_map. exists (nm, os). auto.
Qed.

(** A declared type is found, with its number of parameters. *)
Lemma find_declared nm ds at_ m n k : In (nm, ds) values -> module_at ds at_ m -> declares m n k ->
  exists i, find_entry (nm :: at_) n all = Some i /\ nth_error ar i = Some k.
Proof.
  intros Hv Hm (d & Hd & Hk). change (is_type d n k) in Hk. destruct (all_complete nm ds at_ m d n k Hv Hm Hd Hk) as (e & He & Hof).
  destruct (entry_of_facts _ _ _ Hof) as (Hp & Ht & _).
  assert (Hname : e_name e = n) by (destruct d; try destruct Hk; destruct Ht; congruence).
  destruct (find_entry_in _ _ _ _ He Hp Hname) as [i Hi]. exists i. split; [exact Hi|].
  destruct (find_entry_some _ _ _ _ Hi) as (e' & Hn' & Hp' & Hname').
  destruct (all_sound e' (nth_error_In _ _ Hn')) as (nm' & ds' & at' & m' & d' & Hv' & Hm' & Hd' & Hof').
  destruct (entry_of_facts _ _ _ Hof') as (Hp2 & Ht' & _). rewrite Hp' in Hp2. injection Hp2 as <- <-.
  rewrite (in_fst_unique _ _ _ _ Hnames Hv' Hv) in Hm'. pose proof (module_at_fun _ _ _ Hm _ (Hunique _ _ Hv) Hm') as <-.
  rewrite Hname' in Ht'. unfold ar, arities. fold all. rewrite nth_error_map, Hn'. cbn [option_map]. f_equal. symmetry.
  eapply is_type_unique; [|exact Hd|exact Hd'|exact Hk|exact Ht']. apply unique_here, (unique_at ds at_); [apply (Hunique nm); exact Hv|exact Hm].
Qed.

Lemma lookup_local nm ds at_ m path n k : In (nm, ds) values -> module_at ds at_ m -> local_ok m path n k ->
  exists i, lookup all us (nm :: at_) path n = Some i /\ nth_error ar i = Some k.
Proof.
  intros Hv Hm (target & Ht & Hd). pose proof (module_at_app _ _ _ _ _ Hm Ht) as Ha.
  destruct (find_declared nm ds _ _ n k Hv Ha Hd) as (i & Hi & Hk). exists i. split; [|exact Hk].
  unfold lookup. cbn [app]. rewrite Hi. reflexivity.
Qed.

Lemma us_sound p segs el : In (p, segs, el) us -> exists nm ds at_ m, In (nm, ds) values /\ module_at ds at_ m /\ p = nm :: at_ /\ In (PImport segs el) m.
Proof.
  intros H. apply in_flat_map in H as ([nm os] & Ho & He). destruct (Forall2_in_r _ _ _ _ Hcomp Ho) as ([nm' ds] & Hv & Hn & HF).
  cbn in Hn, HF. subst nm'. destruct (uses_sound ds os [nm] p segs el HF He) as (at_ & m & H1 & H2 & H3).
  exists nm, ds, at_, m. auto.
Qed.
Lemma names_all_sound p n : In (p, n) names -> exists nm ds at_ m, In (nm, ds) values /\ module_at ds at_ m /\ p = nm :: at_ /\ (In n (introduced m) \/ n = []).
Proof.
  intros H. apply in_flat_map in H as ([nm os] & Ho & He). destruct (Forall2_in_r _ _ _ _ Hcomp Ho) as ([nm' ds] & Hv & Hn & HF).
  cbn in Hn, HF. subst nm'. destruct (names_sound ds os [nm] p n HF He) as (at_ & m & H1 & H2 & H3).
  exists nm, ds, at_, m. auto.
Qed.

Lemma lookup_imported nm ds n k : In (nm, ds) values -> imported_ok values ds n k ->
  exists i, lookup all us [nm] [] n = Some i /\ nth_error ar i = Some k.
Proof.
  intros Hv (root & rest & ds' & target & Hi & Hr & Ht & Hd).
  destruct (find_declared root ds' rest target n k Hr Ht Hd) as (i & Hfi & Hk).
  assert (Huse : find_use [nm] n us = Some (root :: rest)).
  { unfold find_use. destruct (find _ us) as [[[p segs] el]|] eqn:E.
    - apply find_some in E as [Hin Hb]. apply andb_true_iff in Hb as [Hp He]. apply path_eqb_eq in Hp. subst p.
      destruct el as [x|]; [|discriminate]. apply str_eqb_eq in He. subst x.
      destruct (us_sound _ _ _ Hin) as (nm' & ds2 & at_ & m & Hv' & Hm & Hp & Him). injection Hp as <- <-.
      rewrite (in_fst_unique _ _ _ _ Hnames Hv' Hv) in Hm. inversion Hm; subst m.
      f_equal. unfold use_target. cbn [removelast app].
      eapply (same_import ds n); [apply unique_here; apply (Hunique nm); exact Hv|exact Him|exact Hi].
    - exfalso. destruct (Forall2_in_l _ _ _ _ Hcomp Hv) as ([nm' os] & Ho & Hn & HF). cbn in Hn, HF. subst nm'.
      pose proof (uses_complete ds os [nm] _ _ HF Hi) as Hin.
      assert (Hus : In ([nm], root :: rest, Some n) us) by (apply in_flat_map; exists (nm, os); auto).
      pose proof (find_none _ _ E _ Hus) as Hb. cbn beta iota in Hb.
      rewrite str_eqb_refl, andb_true_r in Hb. assert (path_eqb [nm] [nm] = true) by (apply path_eqb_eq; reflexivity). congruence. }
  assert (Hloc : find_entry ([nm] ++ []) n all = None).
  { destruct (find_entry ([nm] ++ []) n all) as [j|] eqn:E; [|reflexivity]. exfalso.
    destruct (find_entry_some _ _ _ _ E) as (e' & Hn' & Hp' & Hname').
    destruct (all_sound e' (nth_error_In _ _ Hn')) as (nm' & ds2 & at' & m' & d' & Hv' & Hm' & Hd' & Hof').
    destruct (entry_of_facts _ _ _ Hof') as (Hp2 & Ht' & _). rewrite Hp' in Hp2. injection Hp2 as <- <-.
    rewrite (in_fst_unique _ _ _ _ Hnames Hv' Hv) in Hm'. inversion Hm'; subst m'.
    pose proof (unique_here _ (Hunique _ _ Hv)) as Hnd. rewrite Hname' in Ht'.
    assert (Hint : In n (introduces d')) by (destruct d'; try destruct Ht'; subst; left; reflexivity).
    clear - Hnd Hint Hd' Ht' Hi. induction ds as [|x m IH]; [destruct Hi|]. rewrite introduced_cons in Hnd. destruct Hd' as [->|Hd'], Hi as [Hi|Hi].
    - subst d'. destruct Ht'.
    - apply (NoDup_app_disj _ _ n Hnd Hint). eapply in_introduced; [exact Hi|left; reflexivity].
    - subst x. apply (NoDup_app_disj _ _ n Hnd); [left; reflexivity|]. eapply in_introduced; eassumption.
    - apply IH; try assumption. apply NoDup_app_r in Hnd. exact Hnd. }
  exists i. split; [|exact Hk]. unfold lookup. rewrite Hloc, Huse, Hfi. reflexivity.
Qed.
End Project.

(** * Types *)
Lemma position_some n l : In n l -> exists i, position n l = Some i /\ (i < length l)%nat.
Proof.
  induction l as [|x l IH]; intros []; cbn [position length].
  - subst. rewrite str_eqb_refl. exists 0%nat. split; [reflexivity|lia].
  - destruct (str_eqb x n); [exists 0%nat; split; [reflexivity|lia]|]. destruct (IH H) as (i & -> & Hi). exists (S i). split; [reflexivity|lia].
Qed.
Lemma position_none n l : ~ In n l -> position n l = None.
Proof.
  induction l as [|x l IH]; intros H; cbn [position]; [reflexivity|].
  destruct (str_eqb x n) eqn:E; [apply str_eqb_eq in E; destruct H; left; exact E|]. rewrite IH; [reflexivity|]. intros Hi. apply H. right. exact Hi.
Qed.

Lemma all_opt_map_ok {A B C} (f : B -> option C) (g : A -> B) (P : C -> Prop) l :
  (forall a, In a l -> exists c, f (g a) = Some c /\ P c) -> exists cs, all_opt f (map g l) = Some cs /\ length cs = length l /\ Forall P cs.
Proof.
  induction l as [|a l IH]; intros H; cbn [map all_opt length]; [exists []; repeat split; constructor|].
  destruct (H a (or_introl eq_refl)) as (c & -> & Hc). destruct IH as (cs & -> & Hl & HF); [intros x Hx; apply H; right; exact Hx|].
  exists (c :: cs). cbn [length]. split; [reflexivity|]. split; [lia|constructor; assumption].
Qed.

Section Types.
Variables (look : list str -> str -> option nat) (params : list str) (ar : list nat).
Definition ref_ok (path : list str) (n : str) (g : option (punct pty)) : Prop :=
  (path = [] /\ g = None /\ In n params) \/
  (~ (path = [] /\ In n params) /\ exists i, look path n = Some i /\ nth_error ar i = Some (args g)).
Definition type_ok (t : pty) : Prop :=
  (forall path n g, part anywhere (PExternal path n g) t -> ref_ok path n g) /\ non_zero_ok t /\ tuples_ok anywhere t.
Lemma type_ok_child t c : In c (children t) -> type_ok t -> type_ok c.
Proof.
  intros Hc (H1 & H2 & H3). split; [|split].
  - intros path n g Hp. apply H1. eapply part_child; [reflexivity|exact Hc|exact Hp].
  - intros u Hp. apply H2. eapply part_child; [reflexivity|exact Hc|exact Hp].
  - intros ts Hp. apply H3. eapply part_child; [reflexivity|exact Hc|exact Hp].
Qed.
Lemma lower_ref_ok path n g args' : ref_ok path n g -> length args' = args g -> (g = None -> args' = []) ->
  Forall (fun u => all_ty (node_wf ar (length params)) u = true) args' ->
  exists u, lower_ref look params path n args' = Some u /\ all_ty (node_wf ar (length params)) u = true.
Proof.
  intros Hr Hl Hn HF. unfold lower_ref. destruct Hr as [(-> & -> & Hin)|(Hno & i & Hi & Hk)].
  - destruct (position_some n params Hin) as (i & -> & Hlt). rewrite Hn by reflexivity. exists (TParam i). split; [reflexivity|].
    cbn [all_ty node_wf]. apply Nat.ltb_lt in Hlt. rewrite Hlt. reflexivity.
  - assert (E : option_map (fun i => TExt i args') (look path n) = Some (TExt i args')) by (rewrite Hi; reflexivity).
    exists (TExt i args'). split.
    + destruct path as [|x path]; [|exact E]. rewrite position_none; [exact E|]. intros H. apply Hno. auto.
    + cbn [all_ty node_wf]. rewrite Hk, Hl, Nat.eqb_refl. cbn [andb]. apply forallb_forall. rewrite Forall_forall in HF. exact HF.
Qed.
Lemma lower_type_ok t : type_ok t ->
  exists u, lower_type look params (simplify_type t) = Some u /\ all_ty (node_wf ar (length params)) u = true.
Proof.
  induction t as [p|t IH|k v IHk IHv|t IH|t IH|t IH|ts IH|t n IH|path name|path name ts IH] using pty_ind2; intros Ht.
  - exists (lower_prim p). split; [reflexivity|]. destruct p; reflexivity.
  - destruct IH as (u & E & W); [eapply type_ok_child; [|exact Ht]; left; reflexivity|].
    exists (TVec u). cbn [simplify_type lower_type]. rewrite E. split; [reflexivity|]. cbn. exact W.
  - destruct IHk as (u & E & W); [eapply type_ok_child; [|exact Ht]; left; reflexivity|].
    destruct IHv as (u' & E' & W'); [eapply type_ok_child; [|exact Ht]; right; left; reflexivity|].
    exists (TMap u u'). cbn [simplify_type lower_type]. rewrite E, E'. split; [reflexivity|]. cbn. rewrite W, W'. reflexivity.
  - destruct IH as (u & E & W); [eapply type_ok_child; [|exact Ht]; left; reflexivity|].
    exists (TSet u). cbn [simplify_type lower_type]. rewrite E. split; [reflexivity|]. cbn. exact W.
  - destruct IH as (u & E & W); [eapply type_ok_child; [|exact Ht]; left; reflexivity|].
    exists (TOption u). cbn [simplify_type lower_type]. rewrite E. split; [reflexivity|]. cbn. exact W.
  - destruct IH as (u & E & W); [eapply type_ok_child; [|exact Ht]; left; reflexivity|].
    exists (TNonZero u). cbn [simplify_type lower_type]. rewrite E. split; [reflexivity|]. cbn [all_ty node_wf]. rewrite W, andb_true_r.
    destruct Ht as (_ & Hz & _). specialize (Hz t (part_self _ _)).
    destruct t as [p|t|k v|t|t|t|ts|t n|path name g]; cbn [non_zero_content] in Hz; try contradiction; cbn [simplify_type lower_type] in E.
    + injection E as <-. destruct p; try reflexivity; cbn in Hz; repeat (destruct Hz as [Hz|Hz]; [discriminate Hz|]); contradiction.
    + destruct (lower_type look params (simplify_type t)); [|discriminate]. injection E as <-. reflexivity.
    + destruct (lower_type look params (simplify_type k)); [|discriminate]. destruct (lower_type look params (simplify_type v)); [|discriminate].
      injection E as <-. reflexivity.
    + destruct (lower_type look params (simplify_type t)); [|discriminate]. injection E as <-. reflexivity.
  - rewrite simplify_tuple. cbn [lower_type].
    destruct (all_opt_map_ok (lower_type look params) simplify_type (fun u => all_ty (node_wf ar (length params)) u = true) (p_values ts)) as (us & E & Hl & HF).
    { intros t Hin. apply (IH t Hin). eapply type_ok_child; [|exact Ht]; exact Hin. }
    rewrite E. exists (TTuple us). split; [reflexivity|]. cbn [all_ty node_wf].
    destruct Ht as (_ & _ & Hz). destruct (Hz ts (part_self _ _)) as [Ha Hb]. rewrite p_len_length, <- Hl in Ha, Hb.
    apply Nat.leb_le in Ha, Hb. rewrite Ha, Hb. cbn [andb]. apply forallb_forall. rewrite Forall_forall in HF. exact HF.
  - destruct IH as (u & E & W); [eapply type_ok_child; [|exact Ht]; left; reflexivity|].
    exists (TArray u (N.to_nat n)). cbn [simplify_type lower_type]. rewrite E. split; [reflexivity|]. cbn. exact W.
  - cbn [simplify_type lower_type all_opt]. apply (lower_ref_ok path name None).
    + apply (proj1 Ht). apply part_self.
    + reflexivity.
    + reflexivity.
    + constructor.
  - rewrite simplify_external. cbn [lower_type].
    destruct (all_opt_map_ok (lower_type look params) simplify_type (fun u => all_ty (node_wf ar (length params)) u = true) (p_values ts)) as (us & E & Hl & HF).
    { intros t Hin. apply (IH t Hin). eapply type_ok_child; [|exact Ht]; exact Hin. }
    rewrite E. apply (lower_ref_ok path name (Some ts)).
    + apply (proj1 Ht). apply part_self.
    + exact Hl.
    + discriminate.
    + exact HF.
Qed.
End Types.

Lemma same_type_simplify t : forall s, same_type t s -> s = simplify_type t.
Proof.
  assert (HL : forall l ss, (forall t, In t l -> forall s, same_type t s -> s = simplify_type t) -> Forall2 same_type l ss -> ss = map simplify_type l).
  { intros l ss IH HF. induction HF as [|t0 s0 l ss H HF IHF]; [reflexivity|]. cbn [map]. f_equal; [apply IH; [left; reflexivity|exact H]|].
    apply IHF. intros x Hx. apply IH. right. exact Hx. }
  induction t as [p|t IH|k v IHk IHv|t IH|t IH|t IH|ts IH|t n IH|path name|path name ts IH] using pty_ind2; intros s H; inversion H; subst; cbn [simplify_type];
    try (f_equal; auto; fail); try reflexivity.
  - destruct ts as [l x b]. change (map simplify_type l ++ [simplify_type x]) with (map simplify_type l ++ map simplify_type [x]).
    rewrite <- map_app. f_equal. apply (HL (l ++ [x])); assumption.
  - destruct ts as [l x b]. change (map simplify_type l ++ [simplify_type x]) with (map simplify_type l ++ map simplify_type [x]).
    rewrite <- map_app. f_equal. apply (HL (l ++ [x])); assumption.
Qed.

(** * Definitions *)
Section Bodies.
Variables (look : list str -> str -> option nat) (params : list str) (ar : list nat).
Let wf (u : ty) : bool := all_ty (node_wf ar (length params)) u.

Lemma lower_fields_ok fs fs' : compiled_fields fs fs' -> (forall t, In t (field_types fs) -> type_ok look params ar t) ->
  exists Fs, lower_fields look params fs' = Some Fs /\ forallb wf (map f_ty (fs_list Fs)) = true
    /\ map f_id (fs_list Fs) = map sf_id (ss_fields fs') /\ fs_kind Fs = lower_kind (ss_kind fs').
Proof.
  intros (_ & HF & _) Ht. destruct fs' as [k l]. cbn [ss_fields ss_kind] in *.
  assert (H : exists L, all_opt (lower_field look params) l = Some L /\ forallb wf (map f_ty L) = true /\ map f_id L = map sf_id l).
  { remember (field_types fs) as ts eqn:E. clear E. revert ts HF Ht. induction l as [|f l IH]; intros ts HF Ht.
    - exists []. repeat split.
    - cbn [map] in HF. inversion HF as [|t s ts' ss H1 H2]; subst.
      destruct (IH ts' H2) as (L & E & Hw & Hi); [intros x Hx; apply Ht; right; exact Hx|].
      destruct (lower_type_ok look params ar t) as (u & Eu & Wu); [apply Ht; left; reflexivity|].
      exists (Field (sf_name f) (sf_id f) u :: L). cbn [all_opt]. rewrite E. unfold lower_field.
      rewrite (same_type_simplify t _ H1), Eu. cbn [option_map map forallb f_ty f_id]. rewrite Hi.
      split; [reflexivity|]. split; [|reflexivity]. unfold wf at 1. rewrite Wu. exact Hw. }
  destruct H as (L & E & Hw & Hi). exists (Fields (lower_kind k) L). unfold lower_fields. cbn [ss_fields ss_kind]. rewrite E.
  cbn [option_map fs_list fs_kind]. auto.
Qed.
End Bodies.

Lemma std_names_prelude t : incl (std_names t) prelude.
Proof.
  assert (Hcons : forall n l, In n prelude -> incl l prelude -> incl (n :: l) prelude) by (intros n l H1 H2 x [<-|Hx]; auto).
  assert (Hflat : forall ts, (forall t, In t ts -> incl (std_names t) prelude) -> incl (flat_map std_names ts) prelude).
  { intros ts H x Hx. apply in_flat_map in Hx as (t0 & Ht & Hx). exact (H t0 Ht x Hx). }
  assert (Hc : incl (std_names t) prelude /\ match t with
     | SVec u | SHashSet u => incl (std_names u) prelude | SHashMap k v => incl (std_names k ++ std_names v) prelude | _ => True end).
  { induction t as [p|t IH|k v IHk IHv|t IH|t IH|t IH|ts IH|t n IH|path name ts IH] using sty_ind2; cbn [std_names].
    - split; [|exact I]. destruct p; try (intros x []; fail); apply Hcons; try (intros x []; fail); cbn; tauto.
    - destruct IH as [IH _]. split; [|exact IH]. apply Hcons; [cbn; tauto|exact IH].
    - destruct IHk as [IHk _], IHv as [IHv _]. split; apply incl_app; assumption.
    - destruct IH as [IH _]. auto.
    - destruct IH as [IH _]. split; [|exact I]. apply Hcons; [cbn; tauto|exact IH].
    - split; [|exact I]. destruct IH as [_ IH]. destruct t; try (intros x []; fail); exact IH.
    - split; [|exact I]. apply Hflat. intros t Ht. apply (IH t Ht).
    - destruct IH as [IH _]. auto.
    - split; [|exact I]. apply Hflat. intros t Ht. apply (IH t Ht). }
  exact (proj1 Hc).
Qed.

Lemma compiled_unit fs fs' : compiled_fields fs fs' -> ss_kind fs' = SKUnit -> ss_fields fs' = [].
Proof. intros (_ & _ & H) Hk. destruct fs; [destruct H as (H & _); congruence|destruct H as (H & _); congruence|apply H]. Qed.

Lemma fields_ok_intro fs fs' Fs : compiled_fields fs fs' -> map f_id (fs_list Fs) = map sf_id (ss_fields fs') ->
  fs_kind Fs = lower_kind (ss_kind fs') -> NoDup (map sf_id (ss_fields fs')) ->
  (forall i, In i (map sf_id (ss_fields fs')) -> 0 < i < 2 ^ 29) -> fields_ok Fs = true.
Proof.
  intros Hc Hi Hk Hn Hr. unfold fields_ok. rewrite !andb_true_iff. split; [split|].
  - rewrite Hi. apply nodupb_NoDup; [apply N.eqb_eq|exact Hn].
  - apply forallb_forall. intros f Hf. assert (In (f_id f) (map sf_id (ss_fields fs'))) by (rewrite <- Hi; apply in_map; exact Hf).
    destruct (Hr _ H). apply andb_true_iff. split; apply N.ltb_lt; assumption.
  - rewrite Hk. destruct (ss_kind fs') eqn:E; cbn [lower_kind]; try reflexivity.
    rewrite (compiled_unit _ _ Hc E) in Hi. destruct (fs_list Fs); [reflexivity|discriminate].
Qed.

Section Definitions.
Context {F : Type}.
Variables (values : list (str * list (pdef F))) (outs : list (str * list (sdef F))).
Hypothesis Hnames : NoDup (map fst values).
Hypothesis Hunique : forall n ds, In (n, ds) values -> unique_names ds.
Hypothesis Hcomp : Forall2 (fun v o => fst o = fst v /\ Forall2 compiled (snd v) (snd o)) values outs.
Hypothesis Hprelude : forall n ds, In (n, ds) values -> prelude_free ds.

Let all := project_entries outs.
Let us := project_uses outs.
Let names := project_names outs.
Let ar := arities outs.

Lemma not_captured nm ds at_ m d e : In (nm, ds) values -> module_at ds at_ m -> In d m -> entry_of (nm :: at_) d e ->
  existsb (captured names e) (flat_map std_names (body_types (e_body e))) = false.
Proof.
  intros Hv Hm Hd Hof. destruct (entry_of_facts _ _ _ Hof) as (Hp & _ & Hps).
  destruct (existsb _ _) eqn:E; [|reflexivity]. exfalso. apply existsb_exists in E as (n & Hn & Hc).
  assert (Hpre : In n prelude) by (apply in_flat_map in Hn as (t & _ & Hn); exact (std_names_prelude t n Hn)).
  destruct (Hprelude nm ds Hv at_ m n Hm Hpre) as [Hni Hnp].
  unfold captured in Hc. apply orb_true_iff in Hc as [Hc|Hc].
  - apply existsb_exists in Hc as ([p x] & Hin & Hb). apply andb_true_iff in Hb as [Hb1 Hb2]. apply path_eqb_eq in Hb1. apply str_eqb_eq in Hb2. subst p x.
    destruct (names_all_sound values outs Hcomp _ _ Hin) as (nm' & ds' & at' & m' & Hv' & Hm' & Hp' & Hi).
    rewrite Hp in Hp'. injection Hp' as <- <-. rewrite (in_fst_unique _ _ _ _ Hnames Hv' Hv) in Hm'.
    rewrite (module_at_fun _ _ _ Hm' _ (Hunique _ _ Hv) Hm) in Hi. destruct Hi as [Hi|Hi]; [contradiction|].
    subst n. cbn in Hpre. repeat (destruct Hpre as [Hpre|Hpre]; [discriminate Hpre|]). exact Hpre.
  - apply existsb_exists in Hc as (x & Hx & Hb). apply str_eqb_eq in Hb. subst x. rewrite Hps in Hx. exact (Hnp d Hd Hx).
Qed.

(** Every definition is lowered. *)
Lemma lower_entry_ok nm ds at_ m d e : In (nm, ds) values -> module_at ds at_ m -> In d m -> entry_of (nm :: at_) d e ->
  (forall t, In t (flat_map field_types (field_lists d)) -> type_ok (lookup all us (nm :: at_)) (parameters d) ar t) ->
  (forall decl ids, In decl (id_scopes d) -> assigns decl ids -> NoDup ids) ->
  exists D, lower_entry all us names e = Some D
    /\ forallb (all_ty (node_wf ar (length (e_params e)))) (def_types D) = true
    /\ ((forall fs ids i, In fs (field_lists d) -> assigns (field_decls fs) ids -> In i ids -> 0 < i < 2 ^ 29) ->
        (forall decl ids i, In decl (id_scopes d) -> assigns decl ids -> In i ids -> i < 2 ^ 32) -> def_ok D = true).
Proof.
  intros Hv Hm Hd Hof Ht Hids. pose proof (not_captured nm ds at_ m d e Hv Hm Hd Hof) as Hcap.
  destruct (entry_of_facts _ _ _ Hof) as (Hp & _ & Hps). unfold lower_entry. rewrite Hcap, Hp, Hps.
  destruct d as [c n sub|c a n g fs|c a n g vs|c n g t|c n t v|sg el]; try destruct Hof.
  - destruct H as [Hc ->]. cbn [e_body].
    destruct (lower_fields_ok (lookup all us (nm :: at_)) (parameters (PStruct c a n g fs : pdef F)) ar fs x Hc) as (Fs & E & Hw & Hi & Hk).
    { intros t Hin. apply Ht. cbn [field_lists flat_map]. rewrite app_nil_r. exact Hin. }
    rewrite E. exists (DStruct Fs). split; [reflexivity|]. split; [exact Hw|]. intros Hr _.
    assert (Ha : assigns (field_decls fs) (map sf_id (ss_fields x))) by apply Hc.
    apply (fields_ok_intro fs x Fs Hc Hi Hk); [|intros i; apply (Hr fs); [left; reflexivity|exact Ha]].
    apply (Hids (field_decls fs)); [left; reflexivity|exact Ha].
  - destruct H as (Ha & HF & ->). cbn [e_body].
    assert (H : exists L, all_opt (lower_variant (lookup all us (nm :: at_)) (parameters (PEnum c a n g vs : pdef F))) x = Some L
      /\ forallb (all_ty (node_wf ar (length (parameters (PEnum c a n g vs : pdef F))))) (def_types (DEnum L)) = true
      /\ map v_id L = map sv_id x
      /\ ((forall fs ids i, In fs (map pv_fields (p_values vs)) -> assigns (field_decls fs) ids -> In i ids -> 0 < i < 2 ^ 29) ->
          forallb (fun v => fields_ok (v_fields v)) L = true)).
    { assert (Ht' : forall v t, In v (p_values vs) -> In t (field_types (pv_fields v)) ->
         type_ok (lookup all us (nm :: at_)) (parameters (PEnum c a n g vs : pdef F)) ar t).
      { intros v t H1 H2. apply Ht. apply in_flat_map. exists (pv_fields v). split; [cbn [field_lists]; apply in_map; exact H1|exact H2]. }
      assert (Hids' : forall v ids, In v (p_values vs) -> assigns (field_decls (pv_fields v)) ids -> NoDup ids).
      { intros v ids H1. apply Hids. cbn [id_scopes field_lists]. right. apply in_map, in_map. exact H1. }
      clear - HF Ht' Hids'. remember (p_values vs) as l eqn:El. clear El.
      revert Ht'. generalize (parameters (PEnum c a n g vs : pdef F)) as ps. intros ps Ht'.
      induction HF as [|v w l x (Hn & Hcm & Hc) HF IH].
      - exists []. repeat split.
      - destruct IH as (L & E & Hw & Hi & Hok).
        { intros v0 ids H1. apply Hids'. right. exact H1. }
        { intros v0 t H1. apply Ht'. right. exact H1. }
        destruct (lower_fields_ok (lookup all us (nm :: at_)) ps ar (pv_fields v) (sv_fields w) Hc) as (Fs & Ef & Hwf & Hif & Hkf).
        { intros t H1. apply (Ht' v); [left; reflexivity|exact H1]. }
        exists (Variant (sv_id w) Fs :: L). cbn [all_opt]. unfold lower_variant at 1. rewrite Ef, E. cbn [option_map].
        split; [reflexivity|]. split; [|split].
        + cbn [def_types map concat v_fields] in *. rewrite forallb_app. apply andb_true_iff. split; [exact Hwf|exact Hw].
        + cbn [map v_id]. rewrite Hi. reflexivity.
        + intros Hr. cbn [forallb v_fields]. rewrite Hok.
          * rewrite andb_true_r. assert (Ha : assigns (field_decls (pv_fields v)) (map sf_id (ss_fields (sv_fields w)))) by apply Hc.
            apply (fields_ok_intro (pv_fields v) (sv_fields w) Fs Hc Hif Hkf); [|intros i; apply (Hr (pv_fields v)); [left; reflexivity|exact Ha]].
            apply (Hids' v); [left; reflexivity|exact Ha].
          * intros fs ids i H1. apply Hr. right. exact H1. }
    destruct H as (L & E & Hw & Hi & Hok). rewrite E. exists (DEnum L). split; [reflexivity|]. split; [exact Hw|].
    intros Hr Hu. cbn [def_ok]. apply andb_true_iff. split.
    + rewrite Hi. apply nodupb_NoDup; [apply N.eqb_eq|]. apply (Hids (variant_decls vs)); [left; reflexivity|exact Ha].
    + specialize (Hok Hr). rewrite forallb_forall in Hok. apply forallb_forall. intros v Hin. rewrite (Hok v Hin), andb_true_r.
      apply N.ltb_lt. apply (Hu (variant_decls vs) (map sv_id x)); [left; reflexivity|exact Ha|]. rewrite <- Hi. apply in_map. exact Hin.
Qed.
End Definitions.
