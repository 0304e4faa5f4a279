(** C62 on the generated file itself: the names its declarations introduce, and the fields and
    methods of its structs, read off the syntax tree of the file ([GoFile]). *)
From Coq Require Import Permutation.
From Verif Require Import Base Syntax Parser ParserSpec Compiler GoNames GoFile GoClosed GoClosedProofs PropGoNames.
Require Coq.Strings.String.
Import Coq.Strings.String.StringSyntax.
Local Open Scope N_scope.

Section Text.
Context {F : Type}.
(** The names a declaration of a file introduces: types, functions and constants. *)
Definition item_names (it : gitem F) : list str := map fst (item_types it) ++ item_values it.
(** The methods declared with the receiver type [n]. *)
Definition methods_of (n : str) (items : list (gitem F)) : list str :=
  flat_map (fun it => match it with IMethod _ t _ m _ _ _ => if str_eqb t n then [m] else [] | _ => [] end) items.

(** The declarations of one struct or variant. *)
Definition unit_of (name : str) (fs : sfields) (l : list (gitem F)) : Prop :=
  exists c g flds rest, l = IStruct c name g flds :: rest /\ map (fun f => fst (snd f)) flds = map (fun f => camel (sf_name f)) (ss_fields fs) /\
    flat_map item_names l = [name; tx "New" ++ name] /\
    Forall (fun it => match it with IStruct _ _ _ _ => False | IMethod _ t _ _ _ _ _ => t = name | _ => True end) rest /\
    exists extra, methods_of name rest = extra ++ [tx "Encode"; tx "Decode"; tx "Size"] /\ (extra = [] \/ extra = [tx "sealed"]).

Lemma go_fields_names fs l : go_fields fs = Some l -> map (fun f => fst (snd f)) l = map (fun f => camel (sf_name f)) (ss_fields fs).
Proof.
  unfold go_fields. intros H. apply collect_forall2 in H. induction H as [|f y l' l0 Hf _ IH]; [reflexivity|]. cbn [map]. rewrite IH.
  apply omap_some in Hf as (t & _ & ->). reflexivity.
Qed.
Lemma str_eqb_refl' s : str_eqb s s = true.
Proof. apply str_eqb_eq. reflexivity. Qed.
Lemma codec_unit name g fs last k nf c flds : new_func name g fs = Some nf -> @codec F name g fs last = Some k -> go_fields fs = Some flds ->
  unit_of name fs (IStruct c name g flds :: nf :: k) /\ unit_of name fs (IStruct c name g flds :: IMethod false name g (tx "sealed") [] [] [] :: nf :: k).
Proof.
  unfold new_func. intros Hn Hk Hf. apply omap_some in Hn as (ps & _ & ->). unfold codec in Hk.
  destruct (enc_fields fs) as [e|]; [|discriminate]. destruct (dec_body fs) as [d|]; [|discriminate]. destruct (size_fields fs) as [s|]; [|discriminate]. apply some_inj in Hk. subst k.
  split; eexists _, _, _, _; (split; [reflexivity|]); (split; [apply go_fields_names, Hf|]); (split; [reflexivity|]); (split; [repeat (constructor; [try exact I; reflexivity|]); constructor|]).
  - exists []. split; [|left; reflexivity]. unfold methods_of. cbn [flat_map]. rewrite str_eqb_refl'. reflexivity.
  - exists [tx "sealed"]. split; [|right; reflexivity]. unfold methods_of. cbn [flat_map]. rewrite str_eqb_refl'. reflexivity.
Qed.

(** Groups of declarations: units, and declarations without methods. *)
Inductive group : Type := GUnit (name : str) (fs : sfields) (l : list (gitem F)) | GRest (l : list (gitem F)).
Definition g_list (g : group) : list (gitem F) := match g with GUnit _ _ l | GRest l => l end.
Definition group_ok (all : list sfields) (g : group) : Prop :=
  match g with
  | GUnit name fs l => unit_of name fs l /\ In fs all
  | GRest l => Forall (fun it => match it with IStruct _ _ _ _ | IMethod _ _ _ _ _ _ _ => False | _ => True end) l
  end.
(** The lists of fields of a definition. *)
Definition field_lists (d : sdef F) : list sfields :=
  match d with SStruct _ _ _ fs => [fs] | SEnum _ _ _ vs => map sv_fields vs | _ => [] end.
Lemma def_groups d l : go_items d = Some l -> exists gs, l = flat_map g_list gs /\ Forall (group_ok (field_lists d)) gs /\ flat_map item_names l = go_decls d.
Proof.
  destruct d as [c n ds|c n g fs|c n g vs|c n g t|c n t v|seg el]; cbn [go_items field_lists go_decls]; intros H.
  - apply some_inj in H. subst. exists []. repeat split. constructor.
  - unfold go_struct in H. destruct (go_fields fs) as [flds|] eqn:E1; [|discriminate]. destruct (new_func (camel n) g fs) as [nf|] eqn:E2; [|discriminate].
    destruct (codec (camel n) g fs (xid "w")) as [k|] eqn:E3; [|discriminate]. apply some_inj in H. subst l.
    destruct (codec_unit (camel n) g fs _ k nf c flds E2 E3 E1) as [HU _]. exists [GUnit (camel n) fs (IStruct c (camel n) g flds :: nf :: k)]. cbn [flat_map g_list]. rewrite app_nil_r. split; [reflexivity|].
    split; [repeat constructor; exact HU|]. destruct HU as (? & ? & ? & ? & _ & _ & HU & _). exact HU.
  - unfold go_enum in H. apply omap_some in H as (ls & H & ->). apply collect_forall2 in H.
    assert (K : exists gs, concat ls = flat_map g_list gs /\ Forall (group_ok (map sv_fields vs)) gs /\
      flat_map item_names (concat ls) = flat_map (fun v => [camel n ++ 95 :: camel (sv_name v); tx "New" ++ camel n ++ 95 :: camel (sv_name v)]) vs).
    { assert (G : forall all, incl (map sv_fields vs) all -> exists gs, concat ls = flat_map g_list gs /\ Forall (group_ok all) gs /\
        flat_map item_names (concat ls) = flat_map (fun v => [camel n ++ 95 :: camel (sv_name v); tx "New" ++ camel n ++ 95 :: camel (sv_name v)]) vs).
      { intros all Hall. induction H as [|v y vs' ls' Hv _ IH]; [exists []; repeat split; constructor|].
        destruct IH as (gs & E1 & E2 & E3); [intros x Hx; apply Hall; right; exact Hx|].
        unfold go_variant in Hv. destruct (go_fields (sv_fields v)) as [flds|] eqn:F1; [|discriminate].
        destruct (new_func (variant_name n v) (variant_generics g v) (sv_fields v)) as [nf|] eqn:F2; [|discriminate].
        destruct (codec (variant_name n v) (variant_generics g v) (sv_fields v) (xid "nil")) as [k|] eqn:F3; [|discriminate]. apply some_inj in Hv. subst y.
        destruct (codec_unit _ _ _ _ k nf (sv_comment v) flds F2 F3 F1) as [_ HU].
        eexists (GUnit (variant_name n v) (sv_fields v) _ :: gs). cbn [concat flat_map g_list]. split; [rewrite E1; reflexivity|]. split.
        - constructor; [|exact E2]. split; [exact HU|]. apply Hall. left. reflexivity.
        - destruct HU as (? & ? & ? & ? & _ & _ & HU & _). rewrite flat_map_app, E3, HU. reflexivity. }
      apply G. intros x Hx. exact Hx. }
    destruct K as (gs & E1 & E2 & E3).
    exists (GRest [IInterface (camel n ++ tx "Variant") [tx "sealed"]; IDefined c (camel n) (GNamed (camel n ++ tx "Variant") [])] :: gs). cbn [flat_map g_list]. rewrite E1. split; [reflexivity|].
    split; [constructor; [repeat constructor|exact E2]|]. rewrite <- E1. rewrite E3. reflexivity.
  - apply omap_some in H as (gt & _ & ->). exists [GRest [IDefined c (camel n) gt]]. split; [reflexivity|]. split; [repeat constructor|reflexivity].
  - apply omap_some in H as (gt & _ & ->). exists [GRest [IConst c (const_kind t) (camel n) gt v]]. split; [reflexivity|]. split; [repeat constructor|reflexivity].
  - apply some_inj in H. subst. exists []. repeat split. constructor.
Qed.
Lemma file_groups c name ds f : go_file c name ds = Some f -> exists gs, g_items f = flat_map g_list gs /\ Forall (group_ok (flat_map field_lists ds)) gs /\
  flat_map item_names (g_items f) = flat_map go_decls ds.
Proof.
  unfold go_file. intros H. apply omap_some in H as (ls & H & ->). cbn [g_items]. apply collect_forall2 in H.
  induction H as [|d l ds' ls' Hd _ IH]; [exists []; repeat split; constructor|]. destruct IH as (gs & E1 & E2 & E3). destruct (def_groups d l Hd) as (gs0 & F1 & F2 & F3).
  exists (gs0 ++ gs). cbn [concat flat_map]. rewrite !flat_map_app, F3, E3, F1, E1. split; [reflexivity|]. split; [|reflexivity]. apply Forall_app. split.
  - eapply Forall_impl; [|exact F2]. intros [a b e|e]; [|exact (fun x => x)]. intros [X Y]. split; [exact X|]. apply in_app_iff. left. exact Y.
  - eapply Forall_impl; [|exact E2]. intros [a b e|e]; [|exact (fun x => x)]. intros [X Y]. split; [exact X|]. apply in_app_iff. right. exact Y.
Qed.
Lemma methods_app n a b : methods_of n (a ++ b) = methods_of n a ++ methods_of n b.
Proof. apply flat_map_app. Qed.
Lemma group_methods all n g : group_ok all g -> (forall fs l, g <> GUnit n fs l) -> methods_of n (g_list g) = [].
Proof.
  intros H Hn. destruct g as [m fs l|l]; cbn [group_ok g_list] in *.
  - assert (m <> n) by (intros ->; eapply Hn; reflexivity). destruct H as [(c & g & flds & rest & -> & _ & _ & H & _) _]. unfold methods_of. cbn [flat_map app].
    clear Hn. induction H as [|it rest Hit _ IH]; [reflexivity|]. cbn [flat_map]. rewrite IH. destruct it; try reflexivity. subst. destruct (str_eqb m n) eqn:E; [apply str_eqb_eq in E; contradiction|reflexivity].
  - clear Hn. induction H as [|it rest Hit _ IH]; [reflexivity|]. unfold methods_of in *. cbn [flat_map]. rewrite IH. destruct it; try reflexivity. contradiction.
Qed.

(** The names declared in a file are those of [go_decls], whose distinctness is C62_decls_partial. *)
Theorem C62_file_names : forall c name (ds : list (sdef F)) (f : gfile F), go_file c name ds = Some f -> flat_map item_names (g_items f) = flat_map go_decls ds.
Proof. intros c name ds f H. destruct (file_groups c name ds f H) as (gs & _ & _ & E). exact E. Qed.

(** All names declared in a file are different, for usual names. *)
Theorem C62_file_decls_partial : forall c name (ds : list (sdef F)) (f : gfile F),
  go_file c name ds = Some f ->
  Forall PlainType (flat_map go_types ds) ->
  NoDup (flat_map go_types ds ++ map camel (flat_map go_consts ds)) ->
  Forall (fun n => ~ starts (tx "New") n /\ ~ ends (tx "Variant") n) (flat_map go_types ds ++ map camel (flat_map go_consts ds)) ->
  (forall c n g vs, In (SEnum c n g vs) ds -> NoDup (map sv_name vs) /\ Forall (fun v => PlainType (sv_name v)) vs) ->
  NoDup (flat_map item_names (g_items f)).
Proof. intros c name ds f H H1 H2 H3 H4. rewrite (C62_file_names c name ds f H). exact (C62_decls_partial ds H1 H2 H3 H4). Qed.

(** In such a file the fields and methods of every struct have different names, for usual field names. *)
Theorem C62_file_members_partial : forall c name (ds : list (sdef F)) (f : gfile F),
  go_file c name ds = Some f ->
  NoDup (flat_map item_names (g_items f)) ->
  (forall fs, In fs (flat_map field_lists ds) ->
     NoDup (map sf_name (ss_fields fs)) /\ Forall (fun f => PlainField (sf_name f)) (ss_fields fs) /\
     forall f, In f (ss_fields fs) -> ~ In (sf_name f) [tx "encode"; tx "decode"; tx "size"]) ->
  forall c' n g flds, In (IStruct c' n g flds) (g_items f) -> NoDup (map (fun x => fst (snd x)) flds ++ methods_of n (g_items f)).
Proof.
  intros c name ds f H Hnd Hfs c' n g flds Hin. destruct (file_groups c name ds f H) as (gs & E & Hg & _). rewrite E in Hnd, Hin |- *. clear E H.
  apply in_flat_map in Hin as (gr & Hgr & Hin). apply in_split in Hgr as (a & b & ->). apply Forall_app in Hg as [Ha Hb]. apply Forall_cons_iff in Hb as [Hgr Hb].
  destruct gr as [m fs l|l].
  2: { cbn [group_ok g_list] in *. rewrite Forall_forall in Hgr. destruct (Hgr _ Hin). }
  destruct Hgr as [(c1 & g1 & flds1 & rest & -> & En & Ei & Hr & extra & Em & Hx) Hall]. cbn [g_list] in Hin.
  assert (K : @IStruct F c' n g flds = IStruct c1 m g1 flds1).
  { destruct Hin as [Hin|Hin]; [congruence|]. rewrite Forall_forall in Hr. destruct (Hr _ Hin). }
  assert (n = m) by congruence. assert (flds = flds1) by congruence. subst m flds1. clear K Hin.
  rewrite flat_map_app. cbn [flat_map]. rewrite methods_app, methods_app. cbn [g_list].
  assert (Z : forall q, Forall (group_ok (flat_map field_lists ds)) q -> ~ In n (flat_map item_names (flat_map g_list q)) -> methods_of n (flat_map g_list q) = []).
  { clear - F. induction q as [|x q IH]; intros Hq Hn; [reflexivity|]. apply Forall_cons_iff in Hq as [Hx Hq]. cbn [flat_map] in *. rewrite flat_map_app in Hn. rewrite methods_app.
    rewrite IH by (try exact Hq; intros K; apply Hn, in_app_iff; right; exact K). rewrite app_nil_r. eapply group_methods; [exact Hx|]. intros fs l ->. apply Hn, in_app_iff. left.
    destruct Hx as [(? & ? & ? & ? & _ & _ & Hi & _) _]. cbn [g_list]. rewrite Hi. left. reflexivity. }
  rewrite flat_map_app in Hnd. cbn [flat_map] in Hnd. cbn [g_list] in Hnd. rewrite !flat_map_app, Ei in Hnd.
  assert (Hna : ~ In n (flat_map item_names (flat_map g_list a)) /\ ~ In n (flat_map item_names (flat_map g_list b))).
  { apply NoDup_remove_2 in Hnd. split; intros K; apply Hnd, in_app_iff; [left; exact K|right]. apply (in_or_app [tx "New" ++ n]). right. exact K. }
  rewrite (Z a Ha (proj1 Hna)), (Z b Hb (proj2 Hna)). cbn [app]. rewrite app_nil_r. unfold methods_of at 1. cbn [flat_map app]. fold (methods_of n rest). rewrite Em, En.
  destruct (Hfs fs Hall) as (H1 & H2 & H3). pose proof (C62_fields_partial fs H1 H2 H3) as ND. unfold go_members in ND.
  destruct Hx as [-> | ->]; cbn [app].
  - change [tx "Encode"; tx "Decode"; tx "Size"; tx "sealed"] with ([tx "Encode"; tx "Decode"; tx "Size"] ++ [tx "sealed"]) in ND. rewrite app_assoc in ND. apply NoDup_remove_1 in ND. rewrite app_nil_r in ND. exact ND.
  - eapply Permutation_NoDup; [|exact ND]. apply Permutation_app_head. change [tx "Encode"; tx "Decode"; tx "Size"; tx "sealed"] with ([tx "Encode"; tx "Decode"; tx "Size"] ++ [tx "sealed"]). apply Permutation_app_comm.
Qed.
End Text.
Print Assumptions C62_file_members_partial.

(** The sample of [PropGoNames]: its file, and the members of its struct. *)
Example C62_file_ex : exists f, go_file [] (tx "sample") go_sample = Some f /\ NoDup (flat_map item_names (g_items f)) /\
  exists c g flds, In (IStruct c (tx "User") g flds) (g_items f) /\ NoDup (map (fun x => fst (snd x)) flds ++ methods_of (tx "User") (g_items f)).
Proof.
  destruct (go_file [] (tx "sample") go_sample) as [f|] eqn:E; [|exfalso; vm_compute in E; discriminate]. exists f. split; [reflexivity|].
  assert (ND : NoDup (flat_map item_names (g_items f))) by (rewrite (C62_file_names _ _ _ _ E); apply C62_decls_ex). split; [exact ND|].
  assert (Hm : exists c g flds, In (IStruct c (tx "User") g flds) (g_items f)).
  { vm_compute in E. apply some_inj in E. subst f. eexists _, _, _. cbn [g_items]. left. reflexivity. }
  destruct Hm as (c & g & flds & Hm). exists c, g, flds. split; [exact Hm|]. refine (C62_file_members_partial _ _ _ _ E ND _ _ _ _ _ Hm).
  intros fs Hfs. vm_compute in Hfs. repeat destruct Hfs as [<-|Hfs]; try contradiction; cbn [ss_fields map sf_name].
  - split; [constructor; [intros []|constructor]|]. split; [constructor; [apply (pf_one 110 (tx "ame")); [unfold lower; lia|lown]|constructor]|].
    intros x [<-|[]] Hx. vm_compute in Hx. intuition discriminate.
  - split; [constructor|]. split; [constructor|intros x []].
  - split; [constructor; [intros []|constructor]|]. split; [constructor; [apply (pf_one 110 [48]); [unfold lower; lia|lown]|constructor]|].
    intros x [<-|[]] Hx. vm_compute in Hx. intuition discriminate.
Qed.
