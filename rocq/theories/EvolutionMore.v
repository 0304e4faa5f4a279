(** When the reader's value exists and what it is: corollaries for C19 and C20. *)
From Verif Require Import Base Varint VarintSpec VarintProofs Wire WireProofs Codec CodecSpec CodecProofs
  SchemaSpec Safety Stable Size EvolutionSpec Entries Evolution.
Local Open Scope N_scope.

Definition filled (f : field) (l : list (N * option val)) : option val :=
  match assoc (f_id f) l with
  | Some (Some y) => match f_ty f with TOption _ => Some (VSome y) | _ => Some y end
  | Some None => None
  | None => match f_ty f with TOption _ => Some VNone | _ => None end
  end.

Lemma received_forall2 l fr : forall ys, Forall2 (fun f y => filled f l = Some y) fr ys -> received fr l = Some ys.
Proof.
  intros ys H. induction H as [|f y fr ys Hf HF IH]; [reflexivity|]. cbn [received].
  change (match assoc (f_id f) l with
          | Some (Some y) => match f_ty f with TOption _ => Some (VSome y) | _ => Some y end
          | Some None => None
          | None => match f_ty f with TOption _ => Some VNone | _ => None end
          end) with (filled f l).
  rewrite Hf, IH. reflexivity.
Qed.

Section More.
Variables Ew Er : env.
Notation pj := (project Ew Er).

Lemma sent_ids fw : forall vs id, assoc id (sent pj fw vs) <> None -> In id (map f_id fw).
Proof.
  induction fw as [|h fw IH]; intros [|w vs] id H; cbn [sent assoc] in H; try (exfalso; apply H; reflexivity).
  change (assoc id (sent pj (h :: fw) (w :: vs)) <> None) in H. rewrite (sent_cons Ew Er) in H.
  cbn [map]. destruct (slot_of h w).
  - cbn [assoc] in H. destruct (N.eqb_spec (f_id h) id); [left; assumption|right; apply (IH vs); exact H].
  - right. apply (IH vs). exact H.
Qed.

Lemma assoc_sent fw g v : NoDup (map f_id fw) -> forall vs, In (g, v) (combine fw vs) ->
  assoc (f_id g) (sent pj fw vs) = option_map (pj (payload_ty (f_ty g))) (slot_of g v).
Proof.
  induction fw as [|h fw IH]; intros Hnd [|w vs] Hg; try contradiction.
  cbn [map] in Hnd. inversion Hnd as [|? ? Hni Hnd']; subst. cbn [combine] in Hg. rewrite (sent_cons Ew Er).
  destruct Hg as [Hg|Hg].
  - injection Hg as -> ->. destruct (slot_of g v) as [x|]; cbn [assoc option_map].
    + rewrite N.eqb_refl. reflexivity.
    + destruct (assoc (f_id g) (sent pj fw vs)) eqn:E; [|reflexivity].
      exfalso. apply Hni. apply (sent_ids fw vs). congruence.
  - specialize (IH Hnd' vs Hg). destruct (slot_of h w); [|exact IH]. cbn [assoc].
    destruct (N.eqb_spec (f_id h) (f_id g)) as [He|_]; [|exact IH].
    exfalso. apply Hni. rewrite He. apply in_map. eapply in_combine_l. exact Hg.
Qed.

(** A field known to both sides whose payload is converted to itself. *)
Lemma filled_same fw vs f v : NoDup (map f_id fw) -> In (f, v) (combine fw vs) ->
  typed Ew (f_ty f) v = true ->
  (forall x, slot_of f v = Some x -> pj (payload_ty (f_ty f)) x = Some x) ->
  filled f (sent pj fw vs) = Some v.
Proof.
  intros Hnd Hin Ht Hx. unfold filled. rewrite (assoc_sent fw f v Hnd vs Hin).
  unfold slot_of in *. destruct (f_ty f) eqn:Ef; cbn [option_map]; rewrite ?(Hx v eq_refl); try reflexivity.
  destruct (typed_option Ew t v Ht) as [->|[x ->]]; cbn [option_map]; [reflexivity|].
  rewrite (Hx x eq_refl). reflexivity.
Qed.

Lemma forall2_same {A B} (P : A -> B -> Prop) : forall l ys, length l = length ys ->
  (forall x y, In (x, y) (combine l ys) -> P x y) -> Forall2 P l ys.
Proof.
  induction l as [|x l IH]; intros [|y ys] Hl H; try discriminate; constructor.
  - apply H. left. reflexivity.
  - apply IH; [cbn in Hl; lia|]. intros a b Hab. apply H. right. exact Hab.
Qed.

Lemma all_some_id {A} (f : A -> option A) l : (forall x, In x l -> f x = Some x) -> all_some (map f l) = Some l.
Proof.
  induction l as [|x l IH]; intros H; [reflexivity|]. cbn [map all_some].
  rewrite (H x (or_introl eq_refl)), IH by (intros y Hy; apply H; right; exact Hy). reflexivity.
Qed.

Hypothesis HEw : env_ok Ew = true.

Section Same.
Variable S : list nat.
Hypothesis HS : unchanged S Ew Er.

Lemma refs_subst args t : forallb (refs_in S) args = true -> refs_in S t = true -> refs_in S (subst args t) = true.
Proof.
  intros Ha. apply all_ty_subst.
  - apply Forall_forall. intros a Hin. cbn [all_ty andb]. rewrite forallb_forall in Ha. apply (Ha a Hin).
  - intros u Hu. destruct u; cbn [subst] in *; try exact Hu; try (right; reflexivity).
Qed.

Definition SM (v : val) : Prop := forall t, refs_in S t = true -> typed Ew t v = true -> pj t v = Some v.

Lemma refs_payload t : refs_in S t = true -> refs_in S (payload_ty t) = true.
Proof. destruct t; intros H; exact H. Qed.

Lemma same_fields fs args vs : fields_ok fs = true ->
  forallb (refs_in S) (map f_ty (fs_list fs)) = true -> forallb (refs_in S) args = true ->
  Forall (fun v => SM v /\ forall x, v = VSome x -> SM x) vs ->
  all2 (typed Ew) (map f_ty (fs_list (inst args fs))) vs = true ->
  received (fs_list (inst args fs)) (sent pj (fs_list (inst args fs)) vs) = Some vs.
Proof.
  intros Hok Hrf Hra HSM Hty. destruct (fields_ok_ids _ (inst_ok args fs Hok)) as (Hnd & _ & _).
  pose proof (all2_length _ _ _ Hty) as Hlen. rewrite map_length in Hlen.
  apply received_forall2. apply forall2_same; [exact Hlen|]. intros f v Hin.
  pose proof (all2_combine _ _ _ Hty _ _ (combine_map_l f_ty _ _ _ _ Hin)) as Htf.
  apply filled_same; [exact Hnd|exact Hin|exact Htf|].
  intros x Hx. pose proof (typed_slot Ew f v x Htf Hx) as Htx.
  assert (Hr : refs_in S (f_ty f) = true).
  { apply in_combine_l in Hin. unfold inst in Hin. cbn [fs_list] in Hin.
    apply in_map_iff in Hin as (f0 & <- & Hf0). cbn [subst_field f_ty]. apply refs_subst; [exact Hra|].
    apply (forallb_In _ _ _ Hrf). apply in_map. exact Hf0. }
  apply refs_payload in Hr.
  rewrite Forall_forall in HSM. destruct (HSM v) as [H1 H2]; [eapply in_combine_r; exact Hin|].
  unfold slot_of in Hx. destruct (f_ty f); try (injection Hx as <-; apply H1; assumption).
  destruct v; try discriminate Hx. injection Hx as <-. apply (H2 v eq_refl); assumption.
Qed.

Lemma project_same2 v : SM v /\ forall x, v = VSome x -> SM x.
Proof.
  induction v using val_ind'; (split; [|try discriminate]); try (intros x X; injection X as <-; exact (proj1 IHv)).
  - intros t. induction t; intros Hr Ht; try discriminate Ht; try reflexivity.
    + cbn in Ht. destruct t; discriminate.
    + rewrite typed_gen in Ht. rewrite project_gen. apply IHt; assumption.
  - intros t. induction t; intros Hr Ht; try discriminate Ht; try reflexivity.
    + destruct (typed_nz Ew t _ Ht) as (_ & _ & Ht'). rewrite project_nz. apply IHt; assumption.
    + rewrite typed_gen in Ht. rewrite project_gen. apply IHt; assumption.
  - intros t. induction t; intros Hr Ht; try discriminate Ht; try reflexivity.
    + cbn in Ht. destruct t; discriminate.
    + rewrite typed_gen in Ht. rewrite project_gen. apply IHt; assumption.
  - intros t. induction t; intros Hr Ht; try discriminate Ht; try reflexivity.
    + destruct (typed_nz Ew t _ Ht) as (_ & _ & Ht'). rewrite project_nz. apply IHt; assumption.
    + rewrite typed_gen in Ht. rewrite project_gen. apply IHt; assumption.
  - (* VList *)
    assert (H' : forall x, In x l -> SM x) by (intros x Hx; rewrite Forall_forall in H; exact (proj1 (H x Hx))).
    assert (Hl : forall t, refs_in S t = true -> forallb (typed Ew t) l = true -> all_some (map (pj t) l) = Some l).
    { intros t Hr Ht. apply all_some_id. intros x Hx. apply H'; [exact Hx|exact Hr|]. apply (forallb_In _ _ _ Ht Hx). }
    intros t. induction t; intros Hr Ht; try discriminate Ht.
    + cbn [typed head_ok core andb] in Ht. cbn [project core]. rewrite Hl; [reflexivity|exact Hr|exact Ht].
    + cbn [typed head_ok core andb] in Ht. apply andb_true_iff in Ht as [Ht Hnd]. cbn [project core].
      rewrite Hl; [|exact Hr|exact Ht]. cbn [option_map]. rewrite set_of_nodup; [reflexivity| |].
      * intros a b Hab. apply val_eqb_eq. exact Hab.
      * apply (nodupb_NoDup val_eqb); [intros; apply val_eqb_eq|exact Hnd].
    + destruct (typed_nz Ew t _ Ht) as (_ & _ & Ht'). rewrite project_nz. apply IHt; assumption.
    + cbn [typed head_ok core andb] in Ht. cbn [project core].
      assert (Hs : all_some (seq_map pj ts l) = Some l).
      { unfold refs_in in Hr. cbn [all_ty andb] in Hr. clear Hl H. revert ts Hr Ht. induction l as [|x l IH]; intros [|t ts] Hr Ht; cbn [all2] in Ht; try discriminate; [reflexivity|].
        cbn [forallb] in Hr. apply andb_true_iff in Hr as [Hr1 Hr]. apply andb_true_iff in Ht as [Ht1 Ht].
        cbn [seq_map all_some]. rewrite (H' x (or_introl eq_refl) t Hr1 Ht1).
        rewrite (IH (fun y Hy => H' y (or_intror Hy)) ts Hr Ht). reflexivity. }
      rewrite Hs. reflexivity.
    + cbn [typed head_ok core andb] in Ht. apply andb_true_iff in Ht as [_ Ht]. cbn [project core].
      rewrite Hl; [reflexivity|exact Hr|exact Ht].
    + rewrite typed_gen in Ht. rewrite project_gen. apply IHt; assumption.
  - (* VMap *)
    intros t. induction t; intros Hr Ht; try discriminate Ht.
    + cbn [typed head_ok core andb] in Ht. apply andb_true_iff in Ht as [Ht Hnd]. cbn [project core].
      unfold refs_in in Hr. cbn [all_ty andb] in Hr. apply andb_true_iff in Hr as [Hr1 Hr2].
      rewrite all_some_id.
      * cbn [option_map]. rewrite map_of_nodup; [reflexivity| |].
        -- intros a b Hab. apply val_eqb_eq. exact Hab.
        -- apply (nodupb_NoDup val_eqb); [intros; apply val_eqb_eq|exact Hnd].
      * intros [k v] Hx. rewrite Forall_forall in H. destruct (H _ Hx) as [[Hk _] [Hv _]]. cbn [fst snd] in *.
        pose proof (forallb_In _ _ _ Ht Hx) as Hkv. cbn [fst snd] in Hkv. apply andb_true_iff in Hkv as [Htk Htv].
        rewrite (Hk t1 Hr1 Htk), (Hv t2 Hr2 Htv). reflexivity.
    + destruct (typed_nz Ew t _ Ht) as (_ & _ & Ht'). rewrite project_nz. apply IHt; assumption.
    + rewrite typed_gen in Ht. rewrite project_gen. apply IHt; assumption.
  - intros t. induction t; intros Hr Ht; try discriminate Ht; try reflexivity.
    + cbn in Ht. destruct t; discriminate.
    + rewrite typed_gen in Ht. rewrite project_gen. apply IHt; assumption.
  - (* VSome *)
    destruct IHv as [IHv _]. intros t. induction t; intros Hr Ht; try discriminate Ht.
    + cbn [typed head_ok core andb] in Ht. cbn [project core]. rewrite (IHv t); [reflexivity|exact Hr|exact Ht].
    + cbn in Ht. destruct t; discriminate.
    + rewrite typed_gen in Ht. rewrite project_gen. apply IHt; assumption.
  - (* VRec *)
    intros t. induction t; intros Hr Ht; try discriminate Ht.
    + cbn in Ht. destruct t; discriminate.
    + cbn [typed head_ok core andb] in Ht. cbn [project core].
      unfold refs_in in Hr. cbn [all_ty] in Hr. apply andb_true_iff in Hr as [Hi Ha].
      apply existsb_exists in Hi as (j & Hj & Hij). apply Nat.eqb_eq in Hij. subst j.
      destruct (HS i Hj) as [He Hd]. rewrite <- He.
      destruct (nth_error Ew i) as [[fs|vars]|] eqn:Ei; try discriminate.
      rewrite (same_fields fs args vs); [reflexivity| | | | |].
      * eapply env_struct; [exact HEw|exact Ei].
      * apply (Hd _ eq_refl).
      * exact Ha.
      * exact H.
      * exact Ht.
    + rewrite typed_gen in Ht. rewrite project_gen. apply IHt; assumption.
  - (* VVar *)
    intros t. induction t; intros Hr Ht; try discriminate Ht.
    + cbn in Ht. destruct t; discriminate.
    + cbn [typed head_ok core andb] in Ht. cbn [project core].
      unfold refs_in in Hr. cbn [all_ty] in Hr. apply andb_true_iff in Hr as [Hi Ha].
      apply existsb_exists in Hi as (j & Hj & Hij). apply Nat.eqb_eq in Hij. subst j.
      destruct (HS i0 Hj) as [He Hd]. rewrite <- He.
      destruct (nth_error Ew i0) as [[fs|vars]|] eqn:Ei; try discriminate.
      destruct (nth_error vars i) as [var|] eqn:Ev; [|discriminate].
      destruct (env_enum Ew HEw _ _ Ei) as [Hndv Hall].
      rewrite (find_variant_nth vars i 0 var Hndv Ev). cbn [Nat.add].
      pose proof (nth_error_In _ _ Ev) as Hin. destruct (Hall var Hin) as [_ Hfs].
      rewrite (same_fields (v_fields var) args vs); [reflexivity|exact Hfs| |exact Ha|exact H|exact Ht].
      pose proof (Hd _ eq_refl) as Hdt. cbn [def_types] in Hdt. rewrite forallb_forall in Hdt |- *.
      intros t Hint. apply Hdt. apply in_concat. exists (map f_ty (fs_list (v_fields var))). split; [|exact Hint].
      apply in_map_iff. exists var. split; [reflexivity|exact Hin].
    + rewrite typed_gen in Ht. rewrite project_gen. apply IHt; assumption.
Qed.

Lemma project_same t v : refs_in S t = true -> typed Ew t v = true -> pj t v = Some v.
Proof. intros. apply (proj1 (project_same2 v)); assumption. Qed.
End Same.
End More.

(** * A single changed struct *)

Lemma combine_app_l {A B} (a c : list A) (b d : list B) x y : length a = length b ->
  In (x, y) (combine a b) -> In (x, y) (combine (a ++ c) (b ++ d)).
Proof.
  revert b. induction a as [|u a IH]; intros [|w b] Hl H; try discriminate; try contradiction.
  cbn [app combine] in *. destruct H as [H|H]; [left; exact H|right; apply IH; [cbn in Hl; lia|exact H]].
Qed.

Lemma all2_app p ts us : forall vs ws, length ts = length vs ->
  all2 p (ts ++ us) (vs ++ ws) = all2 p ts vs && all2 p us ws.
Proof.
  induction ts as [|t ts IH]; intros [|v vs] ws Hl; try discriminate; [reflexivity|].
  cbn [app all2]. rewrite IH by (cbn in Hl; lia). apply andb_assoc.
Qed.

Section Struct.
Variables Ew Er : env.
Hypothesis HEw : env_ok Ew = true.
Hypothesis HEr : env_ok Er = true.
Variable D S : list nat.
Hypothesis HD : flat_defs Ew D = true.
Hypothesis Hev : schema_evolves D Ew Er.
Hypothesis HS : unchanged S Ew Er.
Variable k : fkind.
Variables fo fx : list field.
Variable i : nat.
Variable args : list ty.
Hypothesis Hargs : forallb (refs_in S) args = true.
Hypothesis Hrefs : forallb (refs_in S) (map f_ty fo) = true.

Lemma filled_common fw vs f v x0 : NoDup (map f_id (fs_list (inst args fw))) ->
  In (f, v) (combine (fs_list (inst args fw)) vs) -> In f (map (subst_field args) fo) -> x0 = v ->
  typed Ew (f_ty f) v = true -> filled f (sent (project Ew Er) (fs_list (inst args fw)) vs) = Some x0.
Proof.
  intros Hnd Hin Hf -> Ht. apply filled_same; try assumption. intros x Hx.
  apply (project_same Ew Er HEw S HS).
  - apply refs_payload. apply in_map_iff in Hf as (f0 & <- & Hf0). cbn [subst_field f_ty].
    apply (refs_subst S); [exact Hargs|]. apply (forallb_In _ _ _ Hrefs). apply in_map. exact Hf0.
  - eapply typed_slot; [exact Ht|exact Hx].
Qed.

(** The writer has the additional fields [fx]. *)
Lemma struct_forward vo vx root rest :
  nth_error Ew i = Some (DStruct (Fields k (fo ++ fx))) ->
  nth_error Er i = Some (DStruct (Fields k fo)) ->
  length vo = length fo ->
  typed Ew (TExt i args) (VRec (vo ++ vx)) = true ->
  prefix_ok Ew (TExt i args) (VRec (vo ++ vx)) = true ->
  lenN (encode Ew root (TExt i args) (VRec (vo ++ vx))) < 2 ^ 64 ->
  decode Er root (TExt i args) (encode Ew root (TExt i args) (VRec (vo ++ vx)) ++ rest) = Ok (VRec vo, rest).
Proof.
  intros Hw Hr Hl Ht Hp Hsz. apply (evolve Ew Er HEw HEr D HD Hev); try assumption.
  cbn [project core]. rewrite Hw, Hr. rewrite (received_forall2 _ _ vo); [reflexivity|].
  cbn [typed head_ok core andb] in Ht. rewrite Hw in Ht.
  destruct (fields_ok_ids _ (inst_ok args _ (env_struct Ew HEw _ _ Hw))) as (Hnd & _ & _).
  apply forall2_same.
  { unfold inst. cbn [fs_list]. rewrite map_length. symmetry. exact Hl. }
  intros f v Hin.
  assert (Hf : In f (map (subst_field args) fo)) by (eapply in_combine_l; exact Hin).
  assert (Hin' : In (f, v) (combine (fs_list (inst args (Fields k (fo ++ fx)))) (vo ++ vx))).
  { unfold inst. cbn [fs_list]. rewrite map_app. apply combine_app_l; [rewrite map_length; symmetry; exact Hl|].
    exact Hin. }
  apply (filled_common (Fields k (fo ++ fx)) _ f v); try assumption; [reflexivity|].
  apply (all2_combine _ _ _ Ht). apply combine_map_l. exact Hin'.
Qed.

(** The reader has the additional optional fields [fx]. *)
Lemma struct_backward vo root rest :
  nth_error Ew i = Some (DStruct (Fields k fo)) ->
  nth_error Er i = Some (DStruct (Fields k (fo ++ fx))) ->
  forallb optional fx = true ->
  typed Ew (TExt i args) (VRec vo) = true ->
  prefix_ok Ew (TExt i args) (VRec vo) = true ->
  lenN (encode Ew root (TExt i args) (VRec vo)) < 2 ^ 64 ->
  decode Er root (TExt i args) (encode Ew root (TExt i args) (VRec vo) ++ rest)
  = Ok (VRec (vo ++ map (fun _ => VNone) fx), rest).
Proof.
  intros Hw Hr Hopt Ht Hp Hsz. apply (evolve Ew Er HEw HEr D HD Hev); try assumption.
  cbn [project core]. rewrite Hw, Hr. rewrite (received_forall2 _ _ (vo ++ map (fun _ => VNone) fx)); [reflexivity|].
  cbn [typed head_ok core andb] in Ht. rewrite Hw in Ht.
  destruct (fields_ok_ids _ (inst_ok args _ (env_struct Ew HEw _ _ Hw))) as (Hnd & _ & _).
  destruct (fields_ok_ids _ (env_struct Er HEr _ _ Hr)) as (Hndr & _ & _).
  pose proof (all2_length _ _ _ Ht) as Hlen. rewrite map_length in Hlen.
  change (fs_list (inst args (Fields k (fo ++ fx)))) with (map (subst_field args) (fo ++ fx)).
  rewrite map_app. apply Forall2_app.
  - apply forall2_same.
    { unfold inst in Hlen. cbn [fs_list] in Hlen. exact Hlen. }
    intros f v Hin.
    assert (Hf : In f (map (subst_field args) fo)) by (eapply in_combine_l; exact Hin).
    apply (filled_common (Fields k fo) _ f v); try assumption; [reflexivity|].
    apply (all2_combine _ _ _ Ht). apply combine_map_l. exact Hin.
  - assert (Hnotin : forall f, In f fx -> ~ In (f_id f) (map f_id fo)).
    { intros f Hf Hc. cbn [fs_list] in Hndr. rewrite map_app in Hndr.
      clear -Hndr Hf Hc. induction fo as [|g l IH]; [contradiction|]. cbn [map app] in *.
      inversion Hndr as [|? ? Hni Hnd']; subst. destruct Hc as [Hc|Hc]; [|apply IH; assumption].
      apply Hni. apply in_or_app. right. rewrite Hc. apply in_map. exact Hf. }
    clear Hr Hev Hndr. induction fx as [|f l IH]; [constructor|]. cbn [forallb] in Hopt.
    apply andb_true_iff in Hopt as [Ho Hopt]. cbn [map]. constructor.
    + unfold filled. cbn [subst_field f_id f_ty].
      destruct (assoc (f_id f) _) eqn:Ea.
      * exfalso. apply (Hnotin f (or_introl eq_refl)).
        assert (Hx : assoc (f_id f) (sent (project Ew Er) (fs_list (inst args (Fields k fo))) vo) <> None) by congruence.
        apply sent_ids in Hx. rewrite inst_ids in Hx. exact Hx.
      * unfold optional in Ho. destruct (f_ty f); try discriminate Ho. reflexivity.
    + apply IH; [exact Hopt|]. intros g Hg. apply Hnotin. right. exact Hg.
Qed.
End Struct.

(** * Totality *)
Section Total.
Variables Ew Er : env.
Hypothesis HEw : env_ok Ew = true.
Hypothesis HEr : env_ok Er = true.
Hypothesis Htot : schema_total Ew Er.
Notation pj := (project Ew Er).

Definition TT (v : val) : Prop := forall t, typed Ew t v = true -> exists y, pj t v = Some y.

Lemma all_some_ex {A B} (f : A -> option B) l : (forall x, In x l -> exists y, f x = Some y) ->
  exists ys, all_some (map f l) = Some ys.
Proof.
  induction l as [|x l IH]; intros H; [eexists; reflexivity|]. cbn [map all_some].
  destruct (H x (or_introl eq_refl)) as [y ->].
  destruct (IH (fun z Hz => H z (or_intror Hz))) as [ys ->]. eexists. reflexivity.
Qed.

Lemma received_ex l fr : (forall f, In f fr -> exists y, filled f l = Some y) -> exists ys, received fr l = Some ys.
Proof.
  induction fr as [|f fr IH]; intros H; [eexists; reflexivity|].
  destruct (H f (or_introl eq_refl)) as [y Hy]. destruct (IH (fun g Hg => H g (or_intror Hg))) as [ys Hys].
  exists (y :: ys). cbn [received].
  change (match assoc (f_id f) l with
          | Some (Some y) => match f_ty f with TOption _ => Some (VSome y) | _ => Some y end
          | Some None => None
          | None => match f_ty f with TOption _ => Some VNone | _ => None end
          end) with (filled f l).
  rewrite Hy, Hys. reflexivity.
Qed.

Lemma optional_subst args f : optional (subst_field args f) = optional f.
Proof.
  unfold optional. cbn [subst_field f_ty]. destruct (f_ty f); try reflexivity.
  cbn [subst]. destruct (nth_error args i); reflexivity.
Qed.

Lemma in_combine_ex {A B} (l : list A) : forall (m : list B) a, length l = length m -> In a l -> exists b, In (a, b) (combine l m).
Proof.
  induction l as [|x l IH]; intros [|y m] a Hl Ha; try discriminate; try contradiction.
  destruct Ha as [->|Ha].
  - exists y. left. reflexivity.
  - destruct (IH m a ltac:(cbn in Hl; lia) Ha) as [b Hb]. exists b. right. exact Hb.
Qed.

Lemma total_fields args fw fr vs : fields_total fw fr -> fields_ok fw = true ->
  Forall (fun v => TT v /\ forall x, v = VSome x -> TT x) vs ->
  all2 (typed Ew) (map f_ty (fs_list (inst args fw))) vs = true ->
  exists ys, received (fs_list (inst args fr)) (sent pj (fs_list (inst args fw)) vs) = Some ys.
Proof.
  intros Hft Hok HT Hty. destruct (fields_ok_ids _ (inst_ok args fw Hok)) as (Hnd & _ & _).
  pose proof (all2_length _ _ _ Hty) as Hlen. rewrite map_length in Hlen.
  apply received_ex. intros f Hf. unfold filled.
  assert (Hslot : forall g v x, In (g, v) (combine (fs_list (inst args fw)) vs) -> slot_of g v = Some x ->
     exists y, pj (payload_ty (f_ty g)) x = Some y).
  { intros g v x Hg Hs. pose proof (all2_combine _ _ _ Hty _ _ (combine_map_l f_ty _ _ _ _ Hg)) as Htg.
    pose proof (typed_slot Ew g v x Htg Hs) as Htx.
    rewrite Forall_forall in HT. destruct (HT v) as [H1 H2]; [eapply in_combine_r; exact Hg|].
    unfold slot_of in Hs. destruct (f_ty g); try (injection Hs as <-; apply H1; exact Htx).
    destruct v; try discriminate Hs. injection Hs as <-. apply (H2 v eq_refl). exact Htx. }
  destruct (assoc (f_id f) (sent pj (fs_list (inst args fw)) vs)) as [[y|]|] eqn:Ea.
  - destruct (f_ty f); eexists; reflexivity.
  - exfalso.
    assert (Hin : In (f_id f) (map f_id (fs_list (inst args fw)))).
    { apply (sent_ids Ew Er _ vs). congruence. }
    apply in_map_iff in Hin as (g & Hid & Hg). destruct (in_combine_ex _ vs g Hlen Hg) as [v Hv].
    pose proof (assoc_sent Ew Er _ g v Hnd vs Hv) as Has. rewrite Hid, Ea in Has.
    destruct (slot_of g v) as [x|] eqn:Es; [|discriminate]. destruct (Hslot g v x Hv Es) as [y Hy].
    cbn [option_map] in Has. congruence.
  - destruct (f_ty f) eqn:Ef; try (eexists; reflexivity); exfalso.
    all: assert (Hopt : optional f = false) by (unfold optional; rewrite Ef; reflexivity).
    all: unfold inst in Hf; cbn [fs_list] in Hf; apply in_map_iff in Hf as (f0 & <- & Hf0).
    all: rewrite optional_subst in Hopt.
    all: destruct (Hft f0 Hf0 Hopt) as (g & Hg & Hid & Hgo).
    all: assert (Hg' : In (subst_field args g) (fs_list (inst args fw))) by (unfold inst; cbn [fs_list]; apply in_map; exact Hg).
    all: destruct (in_combine_ex _ vs _ Hlen Hg') as [v Hv].
    all: pose proof (assoc_sent Ew Er _ _ v Hnd vs Hv) as Has.
    all: cbn [subst_field f_id] in Has, Ea; rewrite Hid, Ea in Has.
    all: rewrite <- (optional_subst args) in Hgo; unfold optional in Hgo; unfold slot_of in Has.
    all: destruct (f_ty (subst_field args g)); discriminate.
Qed.

Lemma total2 v : TT v /\ forall x, v = VSome x -> TT x.
Proof.
  induction v using val_ind'; (split; [|try discriminate]); try (intros x X; injection X as <-; exact (proj1 IHv)).
  - intros t Ht. exists (VBool b). induction t; try discriminate Ht; try reflexivity.
    + cbn in Ht. destruct t; discriminate.
    + rewrite typed_gen in Ht. rewrite project_gen. apply IHt; assumption.
  - intros t Ht. exists (VInt z). induction t; try discriminate Ht; try reflexivity.
    + destruct (typed_nz Ew t _ Ht) as (_ & _ & Ht'). rewrite project_nz. apply IHt; assumption.
    + rewrite typed_gen in Ht. rewrite project_gen. apply IHt; assumption.
  - intros t Ht. exists (VBits b). induction t; try discriminate Ht; try reflexivity.
    + cbn in Ht. destruct t; discriminate.
    + rewrite typed_gen in Ht. rewrite project_gen. apply IHt; assumption.
  - intros t Ht. exists (VBytes l). induction t; try discriminate Ht; try reflexivity.
    + destruct (typed_nz Ew t _ Ht) as (_ & _ & Ht'). rewrite project_nz. apply IHt; assumption.
    + rewrite typed_gen in Ht. rewrite project_gen. apply IHt; assumption.
  - (* VList *)
    assert (H' : forall x, In x l -> TT x) by (intros x Hx; rewrite Forall_forall in H; exact (proj1 (H x Hx))).
    assert (Hl : forall t, forallb (typed Ew t) l = true -> exists ys, all_some (map (pj t) l) = Some ys).
    { intros t Ht. apply all_some_ex. intros x Hx. apply H'; [exact Hx|]. apply (forallb_In _ _ _ Ht Hx). }
    intros t. induction t; intros Ht; try discriminate Ht.
    + cbn [typed head_ok core andb] in Ht. cbn [project core]. destruct (Hl t Ht) as [ys ->]. eexists. reflexivity.
    + cbn [typed head_ok core andb] in Ht. apply andb_true_iff in Ht as [Ht Hnd]. cbn [project core].
      destruct (Hl t Ht) as [ys ->]. eexists. reflexivity.
    + destruct (typed_nz Ew t _ Ht) as (_ & _ & Ht'). rewrite project_nz. apply IHt; assumption.
    + cbn [typed head_ok core andb] in Ht. cbn [project core].
      assert (Hs : exists ys, all_some (seq_map pj ts l) = Some ys).
      { clear Hl H. revert ts Ht. induction l as [|x l IH]; intros [|t ts] Ht; cbn [all2] in Ht; try discriminate; [eexists; reflexivity|].
        apply andb_true_iff in Ht as [Ht1 Ht].
        cbn [seq_map all_some]. destruct (H' x (or_introl eq_refl) t Ht1) as [y ->].
        destruct (IH (fun y Hy => H' y (or_intror Hy)) ts Ht) as [ys ->]. eexists. reflexivity. }
      destruct Hs as [ys ->]. eexists. reflexivity.
    + cbn [typed head_ok core andb] in Ht. apply andb_true_iff in Ht as [_ Ht]. cbn [project core].
      destruct (Hl t Ht) as [ys ->]. eexists. reflexivity.
    + rewrite typed_gen in Ht. rewrite project_gen. apply IHt; assumption.
  - (* VMap *)
    intros t. induction t; intros Ht; try discriminate Ht.
    + cbn [typed head_ok core andb] in Ht. apply andb_true_iff in Ht as [Ht Hnd]. cbn [project core].
      match goal with |- exists y, option_map _ (all_some (map ?f l)) = _ =>
        destruct (all_some_ex f l) as [ys ->]; [|eexists; reflexivity] end.
      intros [k v] Hx. rewrite Forall_forall in H. destruct (H _ Hx) as [[Hk _] [Hv _]]. cbn [fst snd] in *.
      pose proof (forallb_In _ _ _ Ht Hx) as Hkv. cbn [fst snd] in Hkv. apply andb_true_iff in Hkv as [Htk Htv].
      destruct (Hk t1 Htk) as [a ->]. destruct (Hv t2 Htv) as [b ->]. eexists. reflexivity.
    + destruct (typed_nz Ew t _ Ht) as (_ & _ & Ht'). rewrite project_nz. apply IHt; assumption.
    + rewrite typed_gen in Ht. rewrite project_gen. apply IHt; assumption.
  - intros t Ht. exists VNone. induction t; try discriminate Ht; try reflexivity.
    + cbn in Ht. destruct t; discriminate.
    + rewrite typed_gen in Ht. rewrite project_gen. apply IHt; assumption.
  - (* VSome *)
    destruct IHv as [IHv _]. intros t. induction t; intros Ht; try discriminate Ht.
    + cbn [typed head_ok core andb] in Ht. cbn [project core]. destruct (IHv t Ht) as [y ->]. eexists. reflexivity.
    + cbn in Ht. destruct t; discriminate.
    + rewrite typed_gen in Ht. rewrite project_gen. apply IHt; assumption.
  - (* VRec *)
    intros t. induction t; intros Ht; try discriminate Ht.
    + cbn in Ht. destruct t; discriminate.
    + cbn [typed head_ok core andb] in Ht. cbn [project core]. pose proof (Htot i) as Hi.
      destruct (nth_error Ew i) as [[fw|vars]|] eqn:Ei; try discriminate.
      destruct (nth_error Er i) as [[fr|vars]|] eqn:Ej; try contradiction.
      destruct (total_fields args fw fr vs Hi (env_struct Ew HEw _ _ Ei) H Ht) as [ys ->]. eexists. reflexivity.
    + rewrite typed_gen in Ht. rewrite project_gen. apply IHt; assumption.
  - (* VVar *)
    intros t. induction t; intros Ht; try discriminate Ht.
    + cbn in Ht. destruct t; discriminate.
    + cbn [typed head_ok core andb] in Ht. cbn [project core]. pose proof (Htot i0) as Hi.
      destruct (nth_error Ew i0) as [[fs|vw]|] eqn:Ei; try discriminate.
      destruct (nth_error Er i0) as [[fs|vr]|] eqn:Ej; try contradiction.
      destruct (nth_error vw i) as [var|] eqn:Ev; [|discriminate].
      destruct (env_enum Ew HEw _ _ Ei) as [Hndv Hall].
      pose proof (nth_error_In _ _ Ev) as Hin. destruct (Hall var Hin) as [_ Hfs].
      destruct (Hi var Hin) as (w & Hw & Hid & Hft).
      destruct (find_variant (v_id var) vr 0) as [[k r]|] eqn:Ek.
      * destruct (find_variant_some _ _ _ _ _ Ek) as (_ & Hr & Hrid).
        assert (Hrw : r = w).
        { destruct (env_enum Er HEr _ _ Ej) as [Hndr _]. apply nth_error_In in Hr.
          assert (Hvid : v_id r = v_id w) by congruence. clear -Hndr Hr Hw Hvid.
          induction vr as [|a vr IH]; [contradiction|]. cbn [map] in Hndr.
          inversion Hndr as [|? ? Hni Hnd']; subst. destruct Hr as [->|Hr], Hw as [->|Hw]; try reflexivity.
          - exfalso. apply Hni. rewrite Hvid. apply in_map. exact Hw.
          - exfalso. apply Hni. rewrite <- Hvid. apply in_map. exact Hr.
          - apply IH; assumption. }
        subst w.
        destruct (total_fields args _ _ vs Hft Hfs H Ht) as [ys ->]. eexists. reflexivity.
      * exfalso. apply find_variant_none in Ek. apply Ek. rewrite <- Hid. apply in_map. exact Hw.
    + rewrite typed_gen in Ht. rewrite project_gen. apply IHt; assumption.
Qed.

Lemma project_total t v : typed Ew t v = true -> exists y, pj t v = Some y.
Proof. apply (proj1 (total2 v)). Qed.
End Total.
