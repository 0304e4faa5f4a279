(** From a generated file to the declarations its methods use, and to the definitions of the project. *)
From Verif Require Import Base Varint Wire Codec CodecSpec Syntax Parser Printer Compiler Lower GoNames GoFile GoEval GoEvalProofs GoClosed GoClosedProofs PropGoText.
From Verif Require Go GoSize LowerProofs PropGoOut.
Require Coq.Strings.String.
Import Coq.Strings.String.StringSyntax.
Local Open Scope N_scope.

Section FileUnits.
Context {F : Type}.
(** Every method belongs to a type declared in the same list. *)
Definition owners (q : list (gitem F)) : Prop := forall b t g m ps rs bd, In (IMethod b t g m ps rs bd) q -> In t (flat_map item_names q).
Lemma owners_app a b : owners a -> owners b -> owners (a ++ b).
Proof. intros Ha Hb b0 t g m ps rs bd H. rewrite flat_map_app. apply in_app_iff. apply in_app_iff in H as [H|H]; [left; eapply Ha; exact H|right; eapply Hb; exact H]. Qed.
Lemma owners_concat l : Forall owners l -> owners (concat l).
Proof. induction 1 as [|q l Hq _ IH]; [intros b t g m ps rs bd []|]. cbn [concat]. apply owners_app; assumption. Qed.
Lemma unit_owners name fs l : unit_of name fs l -> owners l.
Proof.
  intros (c & g & flds & rest & -> & _ & Hn & Hr & _) b t g0 m ps rs bd H. rewrite Hn. rewrite Forall_forall in Hr. destruct H as [H|H]; [discriminate|]. specialize (Hr _ H). cbv beta iota in Hr. subst. left. reflexivity.
Qed.
Lemma rest_owners l : Forall (fun it => match it with IStruct _ _ _ _ | IMethod _ _ _ _ _ _ _ => False | _ => True end) l -> owners l.
Proof. intros H b t g m ps rs bd Hin. rewrite Forall_forall in H. destruct (H _ Hin). Qed.
Lemma def_owners d l : go_items d = Some l -> owners l.
Proof.
  intros H. destruct (def_groups d l H) as (gs & -> & Hg & _). rewrite flat_map_concat_map. apply owners_concat. rewrite Forall_forall. intros q Hq. apply in_map_iff in Hq as (x & <- & Hx).
  rewrite Forall_forall in Hg. specialize (Hg x Hx). destruct x as [a b e|e]; cbn [group_ok g_list] in *; [eapply unit_owners; exact (proj1 Hg)|apply rest_owners, Hg].
Qed.

(** The declarations of one struct or variant, found in a file by its name. *)
Definition struct_sel (n : str) (it : gitem F) : list (list (comment * (str * gty))) := match it with IStruct _ m [] fs => if str_eqb m n then [fs] else [] | _ => [] end.
Definition method_sel (n m : str) (it : gitem F) : list (list str * list gx) := match it with IMethod true t [] m' ps _ b => if str_eqb t n && str_eqb m' m then [(map fst ps, b)] else [] | _ => [] end.
Lemma no_struct pre n : ~ In n (flat_map item_names pre) -> flat_map (struct_sel n) pre = [].
Proof.
  intros H. induction pre as [|it pre IH]; [reflexivity|]. cbn [flat_map] in *. rewrite IH by (intros K; apply H, in_app_iff; right; exact K). rewrite app_nil_r.
  destruct it as [c m g fs| | | | | | ]; try reflexivity. cbn [struct_sel]. destruct g; [|reflexivity]. destruct (str_eqb m n) eqn:E0; [|reflexivity]. apply str_eqb_eq in E0. subst m. exfalso. apply H. left. reflexivity.
Qed.
Lemma no_method pre n m : owners pre -> ~ In n (flat_map item_names pre) -> flat_map (method_sel n m) pre = [].
Proof.
  intros Ho H. assert (K : forall it, In it pre -> method_sel n m it = []).
  { intros it Hit. destruct it as [ | | | |b t g m' ps rs bd| | ]; try reflexivity. cbn [method_sel]. destruct b; [|reflexivity]. destruct g; [|reflexivity]. destruct (str_eqb t n) eqn:E0; [|reflexivity]. apply str_eqb_eq in E0. subst t. exfalso. apply H. eapply Ho. exact Hit. }
  clear Ho H. induction pre as [|it pre IH]; [reflexivity|]. cbn [flat_map]. rewrite (K it (or_introl eq_refl)). apply IH. intros x Hx. apply K. right. exact Hx.
Qed.
Lemma refl_eqb s : str_eqb s s = true.
Proof. apply str_eqb_eq. reflexivity. Qed.
Lemma unit_found pre post c name fs flds (sealed : bool) nf k last : owners pre -> ~ In name (flat_map item_names pre) ->
  go_fields fs = Some flds -> new_func name [] fs = Some nf -> codec name [] fs last = Some k ->
  unit_at (pre ++ (IStruct c name [] flds :: (if sealed then [IMethod false name [] (tx "sealed") [] [] []] else []) ++ nf :: k) ++ post) name fs last.
Proof.
  intros Ho Hn Hf Hnf Hk. unfold new_func in Hnf. apply omap_some in Hnf as (ps & _ & ->). unfold codec in Hk.
  destruct (enc_fields fs) as [e|] eqn:Ee; [|discriminate]. destruct (dec_body fs) as [d|] eqn:Ed; [|discriminate]. destruct (size_fields fs) as [s|] eqn:Es; [|discriminate]. apply some_inj in Hk. subst k.
  split.
  - exists flds. split; [exact Hf|]. unfold struct_decl. change (fun it => match it with IStruct _ m [] fs => if str_eqb m name then [fs] else [] | _ => [] end) with (struct_sel name). rewrite flat_map_app, no_struct by exact Hn.
    cbn [app flat_map struct_sel]. rewrite refl_eqb. reflexivity.
  - exists e. split; [exact Ee|]. unfold method_decl. fold (method_sel name (tx "Encode")). rewrite flat_map_app, no_method by assumption.
    destruct sealed; cbn [app flat_map method_sel]; rewrite !refl_eqb; reflexivity.
  - exists d. split; [exact Ed|]. unfold method_decl. fold (method_sel name (tx "Decode")). rewrite flat_map_app, no_method by assumption.
    destruct sealed; cbn [app flat_map method_sel]; rewrite !refl_eqb; reflexivity.
  - exists s. split; [exact Es|]. unfold method_decl. fold (method_sel name (tx "Size")). rewrite flat_map_app, no_method by assumption.
    destruct sealed; cbn [app flat_map method_sel]; rewrite !refl_eqb; reflexivity.
Qed.
Lemma file_split c name ds f d : go_file c name ds = Some f -> In d ds -> exists pre l post, g_items f = pre ++ l ++ post /\ go_items d = Some l /\ owners pre.
Proof.
  unfold go_file. intros H Hd. apply omap_some in H as (ls & H & ->). cbn [g_items]. apply collect_forall2 in H. revert Hd. induction H as [|d' l ds' ls' Hl _ IH]; [intros []|]. intros [->|Hd].
  - exists [], l, (concat ls'). split; [reflexivity|]. split; [exact Hl|]. intros b t g m ps rs bd [].
  - destruct (IH Hd) as (pre & l0 & post & E1 & E2 & E3). exists (l ++ pre), l0, post. cbn [concat]. rewrite E1, <- app_assoc. split; [reflexivity|]. split; [exact E2|]. apply owners_app; [eapply def_owners; exact Hl|exact E3].
Qed.
Lemma nodup_pre pre l post n : NoDup (flat_map item_names (pre ++ l ++ post : list (gitem F))) -> In n (flat_map item_names l) -> ~ In n (flat_map item_names pre).
Proof.
  intros Hn Hl Hp. rewrite !flat_map_app in Hn. apply in_split in Hl as (a & b & E). rewrite E in Hn.
  replace (flat_map item_names pre ++ (a ++ n :: b) ++ flat_map item_names post) with ((flat_map item_names pre ++ a) ++ n :: (b ++ flat_map item_names post)) in Hn by (rewrite <- !app_assoc; reflexivity).
  apply NoDup_remove_2 in Hn. apply Hn. apply in_app_iff. left. apply in_app_iff. left. exact Hp.
Qed.
Lemma file_struct c0 name (ds : list (sdef F)) f c n fs : go_file c0 name ds = Some f -> NoDup (flat_map item_names (g_items f)) -> In (SStruct c n [] fs) ds -> unit_at (g_items f) (camel n) fs (xid "w").
Proof.
  intros Hf Hn Hin. destruct (file_split _ _ _ _ _ Hf Hin) as (pre & l & post & E & Hl & Ho). rewrite E in *. cbn [go_items] in Hl. unfold go_struct in Hl.
  destruct (go_fields fs) as [flds|] eqn:E1; [|discriminate]. destruct (new_func (camel n) [] fs) as [nf|] eqn:E2; [|discriminate]. destruct (codec (camel n) [] fs (xid "w")) as [k|] eqn:E3; [|discriminate]. apply some_inj in Hl. subst l.
  apply (unit_found pre post c (camel n) fs flds false nf k (xid "w")); try assumption. eapply nodup_pre; [exact Hn|]. left. reflexivity.
Qed.
Lemma file_variant c0 name (ds : list (sdef F)) f c n vs v : go_file c0 name ds = Some f -> NoDup (flat_map item_names (g_items f)) -> In (SEnum c n [] vs) ds -> In v vs -> unit_at (g_items f) (variant_name n v) (sv_fields v) (xid "nil").
Proof.
  intros Hf Hn Hin Hv. destruct (file_split _ _ _ _ _ Hf Hin) as (pre & l & post & E & Hl & Ho). rewrite E in *. clear E Hf Hin. cbn [go_items] in Hl. unfold go_enum in Hl. apply omap_some in Hl as (ls & H & ->). apply collect_forall2 in H.
  apply in_split in Hv as (v1 & v2 & ->). apply Forall2_app_inv_l in H as (l1 & l2 & H1 & H2 & ->). inversion H2 as [|? lv ? l2' Hlv H2']; subst. clear H2.
  set (hd := [IInterface (camel n ++ tx "Variant") [tx "sealed"]; IDefined c (camel n) (GNamed (camel n ++ tx "Variant") [])] : list (gitem F)).
  assert (E : pre ++ (IInterface (camel n ++ tx "Variant") [tx "sealed"] :: IDefined c (camel n) (GNamed (camel n ++ tx "Variant") []) :: concat (l1 ++ lv :: l2')) ++ post = (pre ++ hd ++ concat l1) ++ lv ++ (concat l2' ++ post)).
  { rewrite concat_app. cbn [concat]. unfold hd. rewrite <- !app_assoc. cbn [app]. rewrite <- !app_assoc. reflexivity. }
  rewrite E in *. clear E.
  assert (Hown : owners (pre ++ hd ++ concat l1)).
  { apply owners_app; [exact Ho|]. apply owners_app; [apply rest_owners; repeat constructor|]. apply owners_concat. clear - H1. induction H1 as [|v l vs ls Hv _ IH]; constructor; [|exact IH]. 
    unfold go_variant in Hv. destruct (go_fields (sv_fields v)) as [flds|] eqn:F1; [|discriminate]. destruct (new_func (variant_name n v) (variant_generics [] v) (sv_fields v)) as [nf|] eqn:F2; [|discriminate].
    destruct (codec (variant_name n v) (variant_generics [] v) (sv_fields v) (xid "nil")) as [k|] eqn:F3; [|discriminate]. apply some_inj in Hv. subst l. eapply unit_owners. apply (proj2 (codec_unit _ _ _ _ k nf (sv_comment v) flds F2 F3 F1)). }
  unfold go_variant in Hlv. change (variant_generics [] v) with (@nil str) in Hlv. destruct (go_fields (sv_fields v)) as [flds|] eqn:F1; [|discriminate]. destruct (new_func (variant_name n v) [] (sv_fields v)) as [nf|] eqn:F2; [|discriminate].
  destruct (codec (variant_name n v) [] (sv_fields v) (xid "nil")) as [k|] eqn:F3; [|discriminate]. apply some_inj in Hlv. subst lv.
  apply (unit_found _ (concat l2' ++ post) (sv_comment v) (variant_name n v) (sv_fields v) flds true nf k (xid "nil")); try assumption. eapply nodup_pre; [exact Hn|]. left. reflexivity.
Qed.
End FileUnits.

(** * The definitions of the project *)
Section ProjectUnits.
Context {F : Type}.
Lemma nodup_flat {A B} (g : A -> list B) : forall l d d' x, NoDup (flat_map g l) -> In d l -> In d' l -> In x (g d) -> In x (g d') -> d = d'.
Proof.
  induction l as [|a l IH]; intros d d' x Hn Hd Hd' Hx Hx'; [destruct Hd|]. cbn [flat_map] in Hn.
  assert (K : forall y, In y l -> In x (g y) -> In x (g a) -> False).
  { intros y Hy H1 H2. apply in_split in H2 as (p & q & E). rewrite E, <- app_assoc in Hn. cbn [app] in Hn. apply NoDup_remove_2 in Hn. apply Hn. apply in_app_iff. right. apply in_app_iff. right. apply in_flat_map. eauto. }
  destruct Hd as [->|Hd], Hd' as [->|Hd']; [reflexivity|exfalso; eapply K; eassumption|exfalso; eapply K; eassumption|]. eapply IH; try eassumption. clear - Hn. induction (g a) as [|y r IH]; [exact Hn|]. apply IH. apply NoDup_cons_iff in Hn as [_ Hn]. exact Hn.
Qed.
Lemma path_eqb_eq : forall a b, path_eqb a b = true -> a = b.
Proof. induction a as [|x a IH]; intros [|y b] H; try discriminate; [reflexivity|]. cbn [path_eqb] in H. apply andb_true_iff in H as [H1 H2]. apply str_eqb_eq in H1. subst y. rewrite (IH b H2). reflexivity. Qed.
Lemma path_eqb_refl a : path_eqb a a = true.
Proof. induction a as [|x a IH]; [reflexivity|]. cbn [path_eqb]. rewrite IH. rewrite refl_eqb. reflexivity. Qed.
Lemma find_entry_some : forall l p n e, In e l -> e_path e = p -> e_name e = n -> exists i e', find_entry p n l = Some i /\ nth_error l i = Some e' /\ e_path e' = p /\ e_name e' = n.
Proof.
  induction l as [|a l IH]; intros p n e H Hp Hn; [destruct H|]. cbn [find_entry]. destruct (path_eqb (e_path a) p && str_eqb (e_name a) n) eqn:E0.
  - apply andb_true_iff in E0 as [E1 E2]. apply path_eqb_eq in E1. apply str_eqb_eq in E2. exists 0%nat, a. repeat split; assumption.
  - destruct H as [->|H]; [subst; rewrite path_eqb_refl, refl_eqb in E0; discriminate|]. destruct (IH p n e H Hp Hn) as (i & e' & -> & H1 & H2 & H3). exists (S i), e'. repeat split; assumption.
Qed.
Lemma entries_path (d : sdef F) : forall path e, In e (entries path d) -> exists more, e_path e = path ++ more /\ (more = [] -> match d with SStruct _ n g fs => e = Entry path n g (BStruct fs) | SEnum _ n g vs => e = Entry path n g (BEnum vs) | _ => False end).
Proof.
  induction d as [c n ds IH|d Hd] using PropGoOut.sdef_ind2; intros path e H.
  - cbn [entries] in H. apply in_flat_map in H as (d & Hd & H). destruct (IH d Hd (path ++ [n]) e H) as (more & E & _). exists (n :: more). split; [rewrite E, <- app_assoc; reflexivity|discriminate].
  - destruct d; cbn [entries] in H; try destruct H as [<-|[]]; try destruct H; [exfalso; eapply Hd; reflexivity| |]; exists []; cbn [e_path]; rewrite app_nil_r; split; reflexivity.
Qed.
Definition look_in (name : str) (ds : list (sdef F)) : list str -> str -> option nat := lookup (project_entries [(name, ds)]) (project_uses [(name, ds)]) [name].
Lemma all_opt_nth {A B} (f : A -> option B) : forall l l' i x, all_opt f l = Some l' -> nth_error l i = Some x -> exists y, nth_error l' i = Some y /\ f x = Some y.
Proof. intros l l' i x H Hx. apply LowerProofs.all_opt_forall2 in H. revert i Hx. induction H as [|a b l l' Hab _ IH]; intros [|i] Hx; try discriminate; [apply some_inj in Hx; subst; exists b; split; [reflexivity|exact Hab]|]. apply IH. exact Hx. Qed.
Lemma project_struct name (ds : list (sdef F)) E c n fs : lower_project [(name, ds)] = Some E -> NoDup (flat_map go_decls ds) -> In (SStruct c n [] fs) ds ->
  exists i fs', look_in name ds [] n = Some i /\ nth_error E i = Some (DStruct fs') /\ lower_fields (look_in name ds) [] fs = Some fs'.
Proof.
  intros HE Hn Hin. assert (Hall : project_entries [(name, ds)] = flat_map (entries [name]) ds) by (unfold project_entries, schema_entries; cbn [flat_map fst snd]; apply app_nil_r).
  assert (He : In (Entry [name] n [] (BStruct fs)) (project_entries [(name, ds)])) by (rewrite Hall; apply in_flat_map; eexists; split; [exact Hin|left; reflexivity]).
  destruct (find_entry_some _ [name] n _ He eq_refl eq_refl) as (i & e & Hi & Hnth & Hp & Hnm).
  assert (Ee : e = Entry [name] n [] (BStruct fs)).
  { pose proof (nth_error_In _ _ Hnth) as H. rewrite Hall in H. apply in_flat_map in H as (d & Hd & H). destruct (entries_path d [name] e H) as (more & E1 & E2).
    assert (more = []) by (rewrite Hp in E1; apply (f_equal (@length str)) in E1; rewrite app_length in E1; cbn [length] in E1; destruct more; [reflexivity|cbn [length] in E1; lia]). specialize (E2 H0).
    assert (d = SStruct c n [] fs).
    { eapply (nodup_flat go_decls ds d _ (camel n) Hn Hd Hin); [|left; reflexivity]. destruct d; try contradiction; subst e; cbn [e_name] in Hnm; subst; [left|right; left]; reflexivity. }
    subst d. exact E2. }
  subst e. unfold lower_project in HE. destruct (all_opt_nth _ _ _ _ _ HE Hnth) as (df & Hdf & Hlow). unfold lower_entry in Hlow. destruct (existsb _ _); [discriminate|]. cbn [e_body e_path e_params] in Hlow. apply omap_some in Hlow as (fs' & Hfs & ->).
  exists i, fs'. unfold look_in, lookup. cbn [app]. rewrite Hi. split; [reflexivity|]. split; [exact Hdf|exact Hfs].
Qed.

(** A set of structs of the file that refer only to each other. *)
Definition closed_structs (sub : list (sdef F)) : Prop := Forall (fun d => match d with
  | SStruct _ _ [] fs => Forall (fun f => simple sub (sf_ty f)) (ss_fields fs) /\ NoDup (map (fun f => camel (sf_name f)) (ss_fields fs))
  | _ => True end) sub.
Lemma file_structs c0 name ds f E sub : go_file c0 name ds = Some f -> lower_project [(name, ds)] = Some E -> NoDup (flat_map item_names (g_items f)) -> incl sub ds -> closed_structs sub ->
  structs_ok (g_items f) sub (look_in name ds) E.
Proof.
  intros Hf HE Hn Hsub Hc c n fs Hin. unfold closed_structs in Hc. rewrite Forall_forall in Hc. pose proof (Hc _ Hin) as [H1 H2]. split; [eapply file_struct; eauto|]. split; [exact H1|]. split; [exact H2|].
  eapply project_struct; [exact HE| |apply Hsub, Hin]. rewrite <- (C62_file_names _ _ _ _ Hf). exact Hn.
Qed.
End ProjectUnits.
