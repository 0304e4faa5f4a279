(** Lemmas about the compiler passes (C28-C34). *)
From Verif Require Import Base Syntax Compiler CompilerSpec.
Local Open Scope N_scope.

(** * Id assignment *)
Fixpoint ids_from (st : N) (decl : list (option N)) : list N :=
  match decl with
  | [] => []
  | d :: l => let i := match d with Some e => e | None => st end in i :: ids_from ((i + 1) mod 2 ^ 32) l
  end.

Lemma ids_from_length st decl : length (ids_from st decl) = length decl.
Proof. revert st. induction decl as [|d l IH]; intros st; [reflexivity|]. cbn [ids_from length]. rewrite IH. reflexivity. Qed.

Lemma ids_from_nth : forall decl st k, (k < length decl)%nat ->
  nth k (ids_from st decl) 0 =
  match nth k decl None with
  | Some e => e
  | None => match k with O => st | S k' => (nth k' (ids_from st decl) 0 + 1) mod 2 ^ 32 end
  end.
Proof.
  induction decl as [|d l IH]; intros st k Hk; [cbn in Hk; lia|].
  destruct k as [|k]; [reflexivity|]. cbn [length] in Hk.
  change (nth (S k) (ids_from st (d :: l)) 0) with (nth k (ids_from ((match d with Some e => e | None => st end + 1) mod 2 ^ 32) l) 0).
  change (nth (S k) (d :: l) None) with (nth k l None).
  rewrite IH by lia. destruct (nth k l None) as [e|]; [reflexivity|].
  destruct k as [|k]; reflexivity.
Qed.

Lemma assigns_ids_from decl : assigns decl (ids_from 1 decl).
Proof. split; [apply ids_from_length|]. intros k Hk. apply ids_from_nth. exact Hk. Qed.

Lemma assigns_unique decl a b : assigns decl a -> assigns decl b -> a = b.
Proof.
  intros [La Ha] [Lb Hb]. apply (nth_ext _ _ 0 0); [congruence|]. rewrite La.
  assert (H : forall k, (k < length decl)%nat -> nth k a 0 = nth k b 0).
  { induction k as [|k IH]; intros Hk; rewrite Ha, Hb by exact Hk; destruct (nth _ decl None); try reflexivity.
    rewrite IH by lia. reflexivity. }
  exact H.
Qed.

Lemma u32_cons d l : u32_ids (d :: l) -> u32_ids l.
Proof. intros H e He. apply H. right. exact He. Qed.

Lemma gen_next_spec chk st d : st < 2 ^ 32 -> (forall e, d = Some e -> e < 2 ^ 32) ->
  let i := match d with Some e => e | None => st end in
  i < 2 ^ 32 /\
  (gen_next chk st d = Some (i, (i + 1) mod 2 ^ 32) /\ (chk = true -> i <> u32_max)
   \/ gen_next chk st d = None /\ chk = true /\ i = u32_max).
Proof.
  intros Hst Hd i. assert (Hi : i < 2 ^ 32).
  { subst i. destruct d as [e|]; [apply Hd; reflexivity|exact Hst]. }
  split; [exact Hi|]. unfold gen_next. fold i. unfold u32_max.
  destruct (N.eqb_spec i (2 ^ 32 - 1)) as [He|Hne].
  - destruct chk; [right; auto|left]. rewrite He. split; [reflexivity|discriminate].
  - left. split; [|intros _; exact Hne]. rewrite N.mod_small; [reflexivity|]. change (2 ^ 32) with 4294967296 in *. lia.
Qed.

(** * Ids: [field_ids] *)
Lemma visited_none {L} i (seen : list (N * L)) : visited i seen = None <-> ~ In i (map fst seen).
Proof.
  induction seen as [|[j l] seen IH]; cbn [visited map In fst]; [tauto|].
  destruct (N.eqb_spec j i) as [->|Hne]; [split; [discriminate|tauto]|]. rewrite IH. tauto.
Qed.

Lemma visited_some {L} i l (seen : list (N * L)) : visited i seen = Some l -> In (i, l) seen.
Proof.
  induction seen as [|[j m] seen IH]; cbn [visited]; [discriminate|].
  destruct (N.eqb_spec j i) as [->|Hne]; intros H; [injection H as ->; left; reflexivity|right; apply IH; exact H].
Qed.

(** What the loop over the fields found. *)
Definition ids_clear (chk : bool) (seen : list N) (ids : list N) : Prop :=
  NoDup ids /\ (forall i, In i ids -> ~ In i seen) /\ (chk = true -> ~ In u32_max ids).

Lemma ids_clear_cons chk seen i ids : ~ In i seen -> (chk = true -> i <> u32_max) ->
  ids_clear chk (i :: seen) ids -> ids_clear chk seen (i :: ids).
Proof.
  intros Hi Hm (Hn & Hs & Hmax). split; [|split].
  - constructor; [|exact Hn]. intros H. apply (Hs i H). left. reflexivity.
  - intros j [<-|Hj]; [exact Hi|]. intros Hin. apply (Hs j Hj). right. exact Hin.
  - intros Hc [H|H]; [apply (Hm Hc); exact H|apply (Hmax Hc H)].
Qed.

Lemma field_ids_spec {L} (err : N -> L -> L -> verr) chk : forall l st seen,
  st < 2 ^ 32 -> u32_ids (map fst l) ->
  let ids := ids_from st (map fst l) in
  match field_ids err chk st seen l with
  | COk _ => ids_clear chk (map fst seen) ids
  | CErr e =>
      exists k i lab other, nth_error ids k = Some i /\ nth_error (map snd l) k = Some lab /\ e = err i lab other
        /\ ids_clear chk (map fst seen) (firstn k ids) /\ (chk = true -> i <> u32_max)
        /\ (In (i, other) seen \/ exists j, (j < k)%nat /\ nth_error ids j = Some i /\ nth_error (map snd l) j = Some other)
  | CPanic =>
      chk = true /\ exists k, nth_error ids k = Some u32_max /\ ids_clear chk (map fst seen) (firstn k ids)
  end.
Proof.
  induction l as [|[d lab] l IH]; intros st seen Hst Hu ids; cbn [field_ids].
  - split; [constructor|]. split; [intros i []|intros _ []].
  - cbn [map fst] in Hu.
    destruct (gen_next_spec chk st d Hst) as [Hi Hg]; [intros e ->; apply Hu; left; reflexivity|].
    set (i := match d with Some e => e | None => st end) in *.
    subst ids. cbn [map fst snd ids_from]. fold i.
    destruct Hg as [[-> Hm]|(-> & Hc & Hmax)].
    + destruct (visited i seen) as [other|] eqn:Ev.
      * exists 0%nat, i, lab, other. cbn [nth_error firstn]. repeat split; auto.
        -- constructor.
        -- left. apply visited_some. exact Ev.
      * apply visited_none in Ev.
        assert (Hlt : (i + 1) mod 2 ^ 32 < 2 ^ 32) by (apply N.mod_lt; discriminate).
        specialize (IH ((i + 1) mod 2 ^ 32) ((i, lab) :: seen) Hlt (u32_cons _ _ Hu)). cbn zeta in IH.
        cbn [map fst] in IH.
        destruct (field_ids err chk _ _ l) as [u|e|].
        -- apply ids_clear_cons; assumption.
        -- destruct IH as (k & i' & lab' & other & H1 & H2 & H3 & H4 & H5 & H6).
           exists (S k), i', lab', other. cbn [nth_error firstn].
           split; [exact H1|]. split; [exact H2|]. split; [exact H3|].
           split; [apply ids_clear_cons; assumption|]. split; [exact H5|].
           destruct H6 as [[H6|H6]|(j & Hj & H6 & H7)].
           ++ injection H6 as -> ->. right. exists 0%nat. repeat split. lia.
           ++ left. exact H6.
           ++ right. exists (S j). repeat split; try assumption. lia.
        -- destruct IH as (Hc & k & H1 & H2). split; [exact Hc|]. exists (S k). cbn [nth_error firstn].
           split; [exact H1|]. apply ids_clear_cons; assumption.
    + split; [exact Hc|]. exists 0%nat. cbn [nth_error firstn]. split; [congruence|].
      split; [constructor|]. split; [intros j []|intros _ []].
Qed.

Lemma nth_error_firstn {A} (l : list A) : forall k j, (j < k)%nat -> nth_error (firstn k l) j = nth_error l j.
Proof.
  induction l as [|x l IH]; intros [|k] [|j] H; try lia; try reflexivity. cbn. apply IH. lia.
Qed.

Lemma firstn_NoDup_app {A} (l : list A) k x : NoDup l -> nth_error l k = Some x -> ~ In x (firstn k l).
Proof.
  intros Hn Hk Hin. apply In_nth_error in Hin as [j Hj].
  assert (Hlt : (j < k)%nat).
  { assert (Hl : (j < length (firstn k l))%nat) by (apply nth_error_Some; congruence). rewrite firstn_length in Hl. lia. }
  rewrite nth_error_firstn in Hj by exact Hlt.
  assert (j = k); [|lia]. apply (proj1 (NoDup_nth_error l) Hn); [|congruence].
  apply nth_error_Some. congruence.
Qed.

Lemma field_ids_ok {L} (err : N -> L -> L -> verr) chk l : u32_ids (map fst l) ->
  let ids := ids_from 1 (map fst l) in
  (field_ids err chk 1 [] l = COk tt <-> NoDup ids /\ (chk = true -> ~ In u32_max ids)).
Proof.
  intros Hu ids. pose proof (field_ids_spec err chk l 1 [] eq_refl Hu) as H. cbn zeta in H. fold ids in H.
  destruct (field_ids err chk 1 [] l) as [[]|e|].
  - destruct H as (H1 & _ & H2). tauto.
  - split; [discriminate|]. intros [Hn Hm]. exfalso.
    destruct H as (k & i & lab & other & Hk & _ & _ & _ & _ & [[]|(j & Hj & Hij & _)]).
    apply (firstn_NoDup_app ids k i Hn Hk). apply (nth_error_In _ j). rewrite nth_error_firstn by exact Hj. exact Hij.
  - split; [discriminate|]. intros [Hn Hm]. exfalso. destruct H as (Hc & k & Hk & _).
    apply (Hm Hc). eapply nth_error_In. exact Hk.
Qed.

(** The labelled lists of [validate_field_ids]. *)
Lemma map_fst_combine {A B} (l : list A) (m : list B) : length l = length m -> map fst (combine l m) = l.
Proof. revert m. induction l as [|x l IH]; intros [|y m] H; try discriminate; [reflexivity|]. cbn. f_equal. apply IH. cbn [length] in H. lia. Qed.
Lemma map_snd_combine {A B} (l : list A) (m : list B) : length l = length m -> map snd (combine l m) = m.
Proof. revert m. induction l as [|x l IH]; intros [|y m] H; try discriminate; [reflexivity|]. cbn. f_equal. apply IH. cbn [length] in H. lia. Qed.

Lemma p_len_values {A} (p : punct A) : p_len p = length (p_values p).
Proof. destruct p. unfold p_len, p_values. cbn. rewrite app_length. reflexivity. Qed.

Lemma named_fst l : map fst (map (fun f => (nf_id f, nf_name f)) l) = map nf_id l.
Proof. rewrite map_map. reflexivity. Qed.
Lemma named_snd l : map snd (map (fun f => (nf_id f, nf_name f)) l) = map nf_name l.
Proof. rewrite map_map. reflexivity. Qed.
Lemma unnamed_fst l : map fst (combine (map uf_id (p_values l)) (seq 0 (p_len l))) = map uf_id (p_values l).
Proof. apply map_fst_combine. rewrite map_length, seq_length, p_len_values. reflexivity. Qed.
Lemma unnamed_snd l : map snd (combine (map uf_id (p_values l)) (seq 0 (p_len l))) = seq 0 (p_len l).
Proof. apply map_snd_combine. rewrite map_length, seq_length, p_len_values. reflexivity. Qed.

Lemma validate_field_ids_ok chk fs ids : u32_ids (field_decls fs) -> assigns (field_decls fs) ids ->
  (validate_field_ids chk fs = COk tt <-> NoDup ids /\ (chk = true -> ~ In u32_max ids)).
Proof.
  intros Hu Ha. rewrite (assigns_unique _ _ _ Ha (assigns_ids_from _)).
  destruct fs as [l|l|]; cbn [validate_field_ids field_decls] in *.
  - pose proof (field_ids_ok DuplicateNamedFieldId chk (map (fun f => (nf_id f, nf_name f)) (p_values l))) as H.
    cbn zeta in H. rewrite named_fst in H. apply H. exact Hu.
  - pose proof (field_ids_ok (fun i pos other => DuplicateUnnamedFieldId i (pos + 1) (other + 1)) chk
      (combine (map uf_id (p_values l)) (seq 0 (p_len l)))) as H.
    cbn zeta in H. rewrite unnamed_fst in H. apply H. exact Hu.
  - cbn. split; [intros _; split; [constructor|intros _ []]|reflexivity].
Qed.

(** The error names two fields with the same id, the second being the first repetition. *)
Lemma validate_field_ids_err chk fs ids e : u32_ids (field_decls fs) -> assigns (field_decls fs) ids ->
  validate_field_ids chk fs = CErr e ->
  exists j k i, (j < k)%nat /\ nth_error ids j = Some i /\ nth_error ids k = Some i /\ NoDup (firstn k ids)
    /\ match fs with
       | FNamed l => exists fj fk, nth_error (p_values l) j = Some fj /\ nth_error (p_values l) k = Some fk
                       /\ e = DuplicateNamedFieldId i (nf_name fk) (nf_name fj)
       | FUnnamed _ => e = DuplicateUnnamedFieldId i (k + 1) (j + 1)
       | FUnit => False
       end.
Proof.
  intros Hu Ha. rewrite (assigns_unique _ _ _ Ha (assigns_ids_from _)). clear Ha ids.
  destruct fs as [l|l|]; cbn [validate_field_ids field_decls] in *; intros He; [| |discriminate].
  - pose proof (field_ids_spec DuplicateNamedFieldId chk (map (fun f => (nf_id f, nf_name f)) (p_values l)) 1 [] eq_refl) as H.
    rewrite named_fst, named_snd in H. specialize (H Hu). cbn zeta in H. rewrite He in H.
    destruct H as (k & i & lab & other & Hk & Hlab & -> & (Hn & _) & _ & [[]|(j & Hj & Hij & Ho)]).
    exists j, k, i. repeat split; try assumption.
    rewrite nth_error_map in Hlab, Ho.
    destruct (nth_error (p_values l) j) as [fj|] eqn:Ej; [|discriminate].
    destruct (nth_error (p_values l) k) as [fk|] eqn:Ek; [|discriminate].
    cbn [option_map] in Hlab, Ho. exists fj, fk. repeat split; congruence.
  - pose proof (field_ids_spec (fun i pos other => DuplicateUnnamedFieldId i (pos + 1) (other + 1)) chk
      (combine (map uf_id (p_values l)) (seq 0 (p_len l))) 1 [] eq_refl) as H.
    rewrite unnamed_fst, unnamed_snd in H. specialize (H Hu). cbn zeta in H. rewrite He in H.
    destruct H as (k & i & lab & other & Hk & Hlab & -> & (Hn & _) & _ & [[]|(j & Hj & Hij & Ho)]).
    exists j, k, i. repeat split; try assumption.
    assert (Hseq : forall n m x, nth_error (seq 0 n) m = Some x -> x = m).
    { intros n m x Hx. assert (m < n)%nat by (rewrite <- (seq_length n 0); apply nth_error_Some; congruence).
      apply (nth_error_nth _ _ 0%nat) in Hx. rewrite seq_nth in Hx by assumption. lia. }
    rewrite (Hseq _ _ _ Hlab), (Hseq _ _ _ Ho). reflexivity.
Qed.

Lemma validate_field_ids_panic chk fs ids : u32_ids (field_decls fs) -> assigns (field_decls fs) ids ->
  (validate_field_ids chk fs = CPanic <->
   chk = true /\ exists k, nth_error ids k = Some u32_max /\ NoDup (firstn k ids)).
Proof.
  intros Hu Ha. rewrite (assigns_unique _ _ _ Ha (assigns_ids_from _)). clear Ha ids.
  assert (G : forall L (err : N -> L -> L -> verr) l, u32_ids (map fst l) ->
    (field_ids err chk 1 [] l = CPanic <-> chk = true /\ exists k,
       nth_error (ids_from 1 (map fst l)) k = Some u32_max /\ NoDup (firstn k (ids_from 1 (map fst l))))).
  { intros L err l Hl. pose proof (field_ids_spec err chk l 1 [] eq_refl Hl) as H. cbn zeta in H.
    set (ids := ids_from 1 (map fst l)) in *.
    destruct (field_ids err chk 1 [] l) as [u|e|].
    - split; [discriminate|]. intros (Hc & k & Hk & _). destruct H as (_ & _ & H). exfalso. apply (H Hc).
      eapply nth_error_In. exact Hk.
    - split; [discriminate|]. intros (Hc & k & Hk & Hnd). exfalso.
      destruct H as (m & i & lab & other & Hm & _ & _ & (Hn & _ & Hx) & Hi & [[]|(j & Hj & Hij & _)]).
      destruct (Nat.lt_trichotomy k m) as [Hkm|[->|Hkm]].
      + apply (Hx Hc). apply (nth_error_In _ k). rewrite nth_error_firstn by exact Hkm. exact Hk.
      + apply (Hi Hc). congruence.
      + assert (j = m); [|lia]. apply (proj1 (NoDup_nth_error (firstn k ids)) Hnd).
        * rewrite firstn_length. apply Nat.min_glb_lt; [lia|]. apply nth_error_Some. congruence.
        * rewrite !nth_error_firstn by lia. congruence.
    - split; [intros _|reflexivity]. destruct H as (Hc & k & Hk & Hn & _). split; [exact Hc|]. exists k. auto. }
  destruct fs as [l|l|]; cbn [validate_field_ids field_decls] in *.
  - rewrite (G _ DuplicateNamedFieldId); rewrite named_fst; [reflexivity|exact Hu].
  - rewrite (G _ (fun i pos other => DuplicateUnnamedFieldId i (pos + 1) (other + 1)));
      rewrite unnamed_fst; [reflexivity|exact Hu].
  - split; [discriminate|]. intros (_ & [|k] & H & _); discriminate.
Qed.

(** * Simplification uses the same ids *)
Lemma draw_spec chk : forall decl st, st < 2 ^ 32 -> u32_ids decl ->
  match draw chk st decl with
  | Some ids => ids = ids_from st decl /\ (chk = true -> ~ In u32_max ids)
  | None => chk = true /\ In u32_max (ids_from st decl)
  end.
Proof.
  induction decl as [|d l IH]; intros st Hst Hu; cbn [draw]; [split; [reflexivity|intros _ []]|].
  destruct (gen_next_spec chk st d Hst) as [Hi Hg]; [intros e ->; apply Hu; left; reflexivity|].
  set (i := match d with Some e => e | None => st end) in *. cbn [ids_from]. fold i.
  destruct Hg as [[-> Hm]|(-> & Hc & Hmax)].
  - assert (Hlt : (i + 1) mod 2 ^ 32 < 2 ^ 32) by (apply N.mod_lt; discriminate).
    specialize (IH ((i + 1) mod 2 ^ 32) Hlt (u32_cons _ _ Hu)).
    destruct (draw chk _ l) as [ids|]; cbn [option_map].
    + destruct IH as [-> H]. split; [reflexivity|]. intros Hc [X|X]; [apply (Hm Hc X)|apply (H Hc X)].
    + destruct IH as [Hc H]. split; [exact Hc|right; exact H].
  - split; [exact Hc|left; exact Hmax].
Qed.

Definition sids (fs : sfields) : list N := map sf_id (ss_fields fs).

Lemma simplify_fields_ids chk fs ids : u32_ids (field_decls fs) -> assigns (field_decls fs) ids ->
  match simplify_fields chk fs with
  | Some s => sids s = ids /\ (chk = true -> ~ In u32_max ids)
  | None => chk = true /\ In u32_max ids
  end.
Proof.
  intros Hu Ha. rewrite (assigns_unique _ _ _ Ha (assigns_ids_from _)). clear Ha ids.
  destruct fs as [l|l|]; cbn [simplify_fields field_decls] in *.
  - pose proof (draw_spec chk (map nf_id (p_values l)) 1 eq_refl Hu) as H.
    destruct (draw chk 1 _) as [ids|]; cbn [option_map]; [|exact H]. destruct H as [-> H]. split; [|exact H].
    unfold sids. cbn [ss_fields]. rewrite map_map.
    rewrite (map_ext _ snd) by (intros [f i]; reflexivity). apply map_snd_combine.
    rewrite ids_from_length, map_length. reflexivity.
  - pose proof (draw_spec chk (map uf_id (p_values l)) 1 eq_refl Hu) as H.
    destruct (draw chk 1 _) as [ids|]; cbn [option_map]; [|exact H]. destruct H as [-> H]. split; [|exact H].
    unfold sids. cbn [ss_fields]. rewrite map_map.
    rewrite (map_ext _ (fun p => snd (snd p))) by (intros [k [f i]]; reflexivity).
    rewrite <- (map_map snd snd). rewrite map_snd_combine, map_snd_combine; [reflexivity| |].
    + rewrite ids_from_length, map_length. reflexivity.
    + rewrite seq_length, combine_length, ids_from_length, map_length, Nat.min_id, p_len_values. reflexivity.
  - split; [reflexivity|intros _ []].
Qed.

(** * Enums *)
Lemma variant_ids_spec chk : forall l st seen, st < 2 ^ 32 -> u32_ids (map pv_id l) ->
  let ids := ids_from st (map pv_id l) in
  match variant_ids chk st seen l with
  | COk _ => ids_clear chk (map fst seen) ids /\ forall v, In v l -> validate_field_ids chk (pv_fields v) = COk tt
  | CErr e =>
      (exists v, In v l /\ validate_field_ids chk (pv_fields v) = CErr e)
      \/ exists k i v other, nth_error ids k = Some i /\ nth_error l k = Some v /\ e = DuplicateVariantId i (pv_name v) other
        /\ ids_clear chk (map fst seen) (firstn k ids)
        /\ (In (i, other) seen \/ exists j w, (j < k)%nat /\ nth_error ids j = Some i /\ nth_error l j = Some w /\ pv_name w = other)
  | CPanic =>
      chk = true /\ (In u32_max ids \/ exists v, In v l /\ validate_field_ids chk (pv_fields v) = CPanic)
  end.
Proof.
  induction l as [|v l IH]; intros st seen Hst Hu ids; cbn [variant_ids].
  - split; [split; [constructor|split; [intros i []|intros _ []]]|intros v []].
  - cbn [map] in Hu.
    destruct (gen_next_spec chk st (pv_id v) Hst) as [Hi Hg]; [intros e He; apply Hu; left; exact He|].
    set (i := match pv_id v with Some e => e | None => st end) in *.
    subst ids. cbn [map ids_from]. fold i.
    destruct Hg as [[-> Hm]|(-> & Hc & Hmax)].
    + destruct (visited i seen) as [other|] eqn:Ev.
      * right. exists 0%nat, i, v, other. cbn [nth_error firstn]. repeat split; auto.
        -- constructor.
        -- left. apply visited_some. exact Ev.
      * apply visited_none in Ev.
        destruct (validate_field_ids chk (pv_fields v)) as [[]|e|] eqn:Ef; cbn [cbind].
        -- assert (Hlt : (i + 1) mod 2 ^ 32 < 2 ^ 32) by (apply N.mod_lt; discriminate).
           specialize (IH ((i + 1) mod 2 ^ 32) ((i, pv_name v) :: seen) Hlt (u32_cons _ _ Hu)). cbn zeta in IH.
           cbn [map fst] in IH.
           destruct (variant_ids chk _ _ l) as [u|e|].
           ++ destruct IH as [IH1 IH2]. split; [apply ids_clear_cons; assumption|].
              intros w [<-|Hw]; [exact Ef|apply IH2; exact Hw].
           ++ destruct IH as [(w & Hw & He)|(k & i' & w & other & H1 & H2 & H3 & H4 & H6)].
              ** left. exists w. split; [right; exact Hw|exact He].
              ** right. exists (S k), i', w, other. cbn [nth_error firstn].
                 split; [exact H1|]. split; [exact H2|]. split; [exact H3|].
                 split; [apply ids_clear_cons; assumption|].
                 destruct H6 as [[H6|H6]|(j & w' & Hj & H6 & H7 & H8)].
                 --- right. exists 0%nat, v. cbn [nth_error]. repeat split; [lia|congruence|congruence].
                 --- left. exact H6.
                 --- right. exists (S j), w'. repeat split; try assumption. lia.
           ++ destruct IH as (Hc & [H|(w & Hw & He)]); (split; [exact Hc|]).
              ** left. right. exact H.
              ** right. exists w. split; [right; exact Hw|exact He].
        -- left. exists v. split; [left; reflexivity|exact Ef].
        -- assert (Hc : chk = true).
           { destruct chk; [reflexivity|]. exfalso. destruct (pv_fields v) as [q|q|]; cbn [validate_field_ids] in Ef; [| |discriminate].
             - clear -Ef. revert Ef. generalize (map (fun f => (nf_id f, nf_name f)) (p_values q)) as z. intros z.
               generalize (@nil (N * str)) as s. generalize 1 as n. induction z as [|[d x] z IH]; intros n s H; [discriminate|].
               cbn [field_ids] in H. unfold gen_next in H.
               destruct (_ =? u32_max); cbn in H; (destruct (visited _ s); [discriminate|]; exact (IH _ _ H)).
             - clear -Ef. revert Ef. generalize (combine (map uf_id (p_values q)) (seq 0 (p_len q))) as z. intros z.
               generalize (@nil (N * nat)) as s. generalize 1 as n. induction z as [|[d x] z IH]; intros n s H; [discriminate|].
               cbn [field_ids] in H. unfold gen_next in H.
               destruct (_ =? u32_max); cbn in H; (destruct (visited _ s); [discriminate|]; exact (IH _ _ H)). }
           split; [exact Hc|]. right. exists v. split; [left; reflexivity|exact Ef].
    + split; [exact Hc|left; left; exact Hmax].
Qed.

Lemma validate_enum_ids_ok chk vs ids : u32_ids (variant_decls vs) -> assigns (variant_decls vs) ids ->
  (validate_enum_ids chk vs = COk tt <->
   NoDup ids /\ (chk = true -> ~ In u32_max ids)
   /\ forall v, In v (p_values vs) -> validate_field_ids chk (pv_fields v) = COk tt).
Proof.
  intros Hu Ha. rewrite (assigns_unique _ _ _ Ha (assigns_ids_from _)). clear Ha ids.
  unfold validate_enum_ids. pose proof (variant_ids_spec chk (p_values vs) 1 [] eq_refl Hu) as H. cbn zeta in H.
  fold (variant_decls vs) in H. set (ids := ids_from 1 (variant_decls vs)) in *.
  destruct (variant_ids chk 1 [] (p_values vs)) as [[]|e|].
  - destruct H as ((H1 & _ & H2) & H3). tauto.
  - split; [discriminate|]. intros (Hn & Hm & Hall). exfalso.
    destruct H as [(v & Hv & He)|(k & i & v & other & Hk & _ & _ & _ & [[]|(j & w & Hj & Hij & _)])].
    + rewrite (Hall v Hv) in He. discriminate.
    + apply (firstn_NoDup_app ids k i Hn Hk). apply (nth_error_In _ j). rewrite nth_error_firstn by exact Hj. exact Hij.
  - split; [discriminate|]. intros (Hn & Hm & Hall). exfalso. destruct H as (Hc & [H|(v & Hv & He)]).
    + apply (Hm Hc H).
    + rewrite (Hall v Hv) in He. discriminate.
Qed.

Lemma validate_enum_ids_err chk vs ids e : u32_ids (variant_decls vs) -> assigns (variant_decls vs) ids ->
  validate_enum_ids chk vs = CErr e ->
  (exists v, In v (p_values vs) /\ validate_field_ids chk (pv_fields v) = CErr e)
  \/ exists j k i vj vk, (j < k)%nat /\ nth_error ids j = Some i /\ nth_error ids k = Some i
       /\ nth_error (p_values vs) j = Some vj /\ nth_error (p_values vs) k = Some vk
       /\ NoDup (firstn k ids) /\ e = DuplicateVariantId i (pv_name vk) (pv_name vj).
Proof.
  intros Hu Ha. rewrite (assigns_unique _ _ _ Ha (assigns_ids_from _)). clear Ha ids.
  unfold validate_enum_ids. intros He. pose proof (variant_ids_spec chk (p_values vs) 1 [] eq_refl Hu) as H. cbn zeta in H.
  rewrite He in H. destruct H as [H|(k & i & v & other & Hk & Hv & -> & (Hn & _) & [[]|(j & w & Hj & Hij & Hw & <-)])]; [left; exact H|].
  right. exists j, k, i, w, v. repeat split; assumption.
Qed.

Lemma simplify_variants_ids chk : forall l st vs, st < 2 ^ 32 -> u32_ids (map pv_id l) ->
  simplify_variants chk st l = Some vs ->
  map sv_id vs = ids_from st (map pv_id l) /\ map sv_name vs = map pv_name l
  /\ Forall2 (fun v s => simplify_fields chk (pv_fields v) = Some (sv_fields s)) l vs.
Proof.
  induction l as [|v l IH]; intros st vs Hst Hu H; cbn [simplify_variants] in H.
  - injection H as <-. repeat split. constructor.
  - cbn [map] in Hu. destruct (simplify_fields chk (pv_fields v)) as [fs|] eqn:Ef; [|discriminate].
    destruct (gen_next_spec chk st (pv_id v) Hst) as [Hi Hg]; [intros e He; apply Hu; left; exact He|].
    set (i := match pv_id v with Some e => e | None => st end) in *.
    destruct Hg as [[Hg Hm]|(Hg & _)]; rewrite Hg in H; [|discriminate].
    destruct (simplify_variants chk _ l) as [ws|] eqn:Er; [|discriminate]. cbn [option_map] in H. injection H as <-.
    assert (Hlt : (i + 1) mod 2 ^ 32 < 2 ^ 32) by (apply N.mod_lt; discriminate).
    destruct (IH _ _ Hlt (u32_cons _ _ Hu) Er) as (H1 & H2 & H3).
    cbn [map ids_from sv_id sv_name]. fold i. rewrite H1, H2. repeat split. constructor; [exact Ef|exact H3].
Qed.

(** * Names *)
Lemma seen_name_in n seen : seen_name n seen = true <-> In n seen.
Proof.
  unfold seen_name. rewrite existsb_exists. split.
  - intros (x & Hx & He). apply str_eqb_eq in He. subst. exact Hx.
  - intros H. exists n. split; [exact H|apply str_eqb_refl].
Qed.
Lemma seen_name_notin n seen : seen_name n seen = false <-> ~ In n seen.
Proof. rewrite <- seen_name_in. destruct (seen_name n seen); split; congruence. Qed.

Lemma repeated_none : forall l seen, repeated seen l = None <-> NoDup l /\ forall n, In n l -> ~ In n seen.
Proof.
  induction l as [|n l IH]; intros seen; cbn [repeated].
  - split; [intros _; split; [constructor|intros n []]|reflexivity].
  - destruct (seen_name n seen) eqn:E.
    + apply seen_name_in in E. split; [discriminate|]. intros [_ H]. exfalso. apply (H n (or_introl eq_refl) E).
    + apply seen_name_notin in E. rewrite IH. split.
      * intros [Hn H]. split.
        -- constructor; [|exact Hn]. intros Hin. apply (H n Hin). left. reflexivity.
        -- intros m [<-|Hm]; [exact E|]. intros Hs. apply (H m Hm). right. exact Hs.
      * intros [Hn H]. inversion Hn as [|? ? Hni Hn']; subst. split; [exact Hn'|].
        intros m Hm [<-|Hs]; [exact (Hni Hm)|]. apply (H m (or_intror Hm) Hs).
Qed.

Lemma repeated_some : forall l seen n, repeated seen l = Some n ->
  exists k, nth_error l k = Some n /\ (In n seen \/ exists j, (j < k)%nat /\ nth_error l j = Some n).
Proof.
  induction l as [|m l IH]; intros seen n H; cbn [repeated] in H; [discriminate|].
  destruct (seen_name m seen) eqn:E.
  - injection H as ->. exists 0%nat. split; [reflexivity|left; apply seen_name_in; exact E].
  - apply IH in H as (k & Hk & [[->|Hs]|(j & Hj & H)]).
    + exists (S k). split; [exact Hk|]. right. exists 0%nat. split; [lia|reflexivity].
    + exists (S k). split; [exact Hk|]. left. exact Hs.
    + exists (S k). split; [exact Hk|]. right. exists (S j). split; [lia|exact H].
Qed.

Lemma repeated_twice l n : repeated [] l = Some n -> twice n l.
Proof. intros H. apply repeated_some in H as (k & Hk & [[]|(j & Hj & H)]). exists j, k. auto. Qed.

Lemma twice_not_NoDup {A} (x : A) l : twice x l -> ~ NoDup l.
Proof.
  intros (j & k & Hlt & Hj & Hk) Hn. assert (j = k); [|lia].
  apply (proj1 (NoDup_nth_error l) Hn); [apply nth_error_Some; congruence|congruence].
Qed.

Lemma validate_field_names_ok fs : validate_field_names fs = COk tt <-> NoDup (field_names fs).
Proof.
  destruct fs as [l|l|]; cbn [validate_field_names field_names]; try (split; [intros _; constructor|reflexivity]).
  destruct (repeated [] _) as [n|] eqn:E.
  - split; [discriminate|]. intros H. exfalso. exact (twice_not_NoDup _ _ (repeated_twice _ _ E) H).
  - apply repeated_none in E as [H _]. split; [intros _; exact H|reflexivity].
Qed.

Lemma validate_field_names_err fs e : validate_field_names fs = CErr e ->
  exists n, e = DuplicateFieldName n /\ twice n (field_names fs).
Proof.
  destruct fs as [l|l|]; cbn [validate_field_names field_names]; try discriminate.
  destruct (repeated [] _) as [n|] eqn:E; [|discriminate]. intros H. injection H as <-. exists n.
  split; [reflexivity|apply repeated_twice; exact E].
Qed.

Lemma variant_names_spec : forall l seen,
  match variant_names seen l with
  | COk _ => NoDup (map pv_name l) /\ (forall v, In v l -> ~ In (pv_name v) seen /\ NoDup (field_names (pv_fields v)))
  | CErr e =>
      (exists v, In v l /\ validate_field_names (pv_fields v) = CErr e)
      \/ exists k n, e = DuplicateVariantName n /\ nth_error (map pv_name l) k = Some n
           /\ (In n seen \/ exists j, (j < k)%nat /\ nth_error (map pv_name l) j = Some n)
  | CPanic => False
  end.
Proof.
  induction l as [|v l IH]; intros seen; cbn [variant_names]; [split; [constructor|intros v []]|].
  destruct (seen_name (pv_name v) seen) eqn:E.
  - right. exists 0%nat, (pv_name v). repeat split. left. apply seen_name_in. exact E.
  - apply seen_name_notin in E. destruct (validate_field_names (pv_fields v)) as [[]|e|] eqn:Ef; cbn [cbind].
    + specialize (IH (pv_name v :: seen)). destruct (variant_names _ l) as [u|e|].
      * destruct IH as [Hn H]. cbn [map]. split.
        -- constructor; [|exact Hn]. intros Hin. apply in_map_iff in Hin as (w & Hw & Hin).
           destruct (H w Hin) as [Hs _]. apply Hs. left. congruence.
        -- intros w [<-|Hw]; [split; [exact E|apply validate_field_names_ok; exact Ef]|].
           destruct (H w Hw) as [Hs Hf]. split; [|exact Hf]. intros X. apply Hs. right. exact X.
      * destruct IH as [(w & Hw & He)|(k & n & -> & Hk & Hj)].
        -- left. exists w. split; [right; exact Hw|exact He].
        -- right. exists (S k), n. split; [reflexivity|]. split; [exact Hk|].
           destruct Hj as [[Hs|Hs]|(j & Hj & H)].
           ++ right. exists 0%nat. split; [lia|cbn; congruence].
           ++ left. exact Hs.
           ++ right. exists (S j). split; [lia|exact H].
      * exact IH.
    + left. exists v. split; [left; reflexivity|exact Ef].
    + destruct (pv_fields v); cbn in Ef; try discriminate. destruct (repeated [] _) in Ef; discriminate.
Qed.

Lemma validate_enum_names_ok vs : validate_enum_names vs = COk tt <->
  NoDup (map pv_name (p_values vs)) /\ forall v, In v (p_values vs) -> NoDup (field_names (pv_fields v)).
Proof.
  unfold validate_enum_names. pose proof (variant_names_spec (p_values vs) []) as H.
  destruct (variant_names [] (p_values vs)) as [[]|e|].
  - destruct H as [H1 H2]. split; [intros _; split; [exact H1|intros v Hv; apply H2; exact Hv]|reflexivity].
  - split; [discriminate|]. intros [Hn Hf]. exfalso.
    destruct H as [(v & Hv & He)|(k & n & _ & Hk & [[]|(j & Hj & H)])].
    + apply Hf in Hv. apply validate_field_names_ok in Hv. congruence.
    + apply (twice_not_NoDup n (map pv_name (p_values vs))); [exists j, k; auto|exact Hn].
  - contradiction.
Qed.

Lemma validate_enum_names_err vs e : validate_enum_names vs = CErr e ->
  (exists n, e = DuplicateVariantName n /\ twice n (map pv_name (p_values vs)))
  \/ (exists n v, e = DuplicateFieldName n /\ In v (p_values vs) /\ twice n (field_names (pv_fields v))).
Proof.
  unfold validate_enum_names. intros He. pose proof (variant_names_spec (p_values vs) []) as H. rewrite He in H.
  destruct H as [(v & Hv & H)|(k & n & -> & Hk & [[]|(j & Hj & H)])].
  - apply validate_field_names_err in H as (n & -> & Ht). right. exists n, v. auto.
  - left. exists n. split; [reflexivity|]. exists j, k. auto.
Qed.

(** The names introduced by a list of definitions. *)
Section Defs.
Context {F : Type}.
Implicit Types (ds : list (pdef F)).
Fixpoint names_of (ds : list (pdef F)) : list str :=
  match ds with
  | [] => []
  | d :: ds' => match def_name d with Some n => n :: names_of ds' | None => names_of ds' end
  end.

Lemma module_names_repeated ds : forall seen, module_names seen ds = repeated seen (names_of ds).
Proof.
  induction ds as [|d ds IH]; intros seen; [reflexivity|]. cbn [module_names names_of].
  destruct (def_name d) as [n|]; [|apply IH]. cbn [repeated]. destruct (seen_name n seen); [reflexivity|apply IH].
Qed.

Lemma validate_names_in_module_ok ds : validate_names_in_module ds = COk tt <-> NoDup (names_of ds).
Proof.
  unfold validate_names_in_module. rewrite module_names_repeated.
  destruct (repeated [] _) as [n|] eqn:E.
  - split; [discriminate|]. intros H. exfalso. exact (twice_not_NoDup _ _ (repeated_twice _ _ E) H).
  - apply repeated_none in E as [H _]. split; [intros _; exact H|reflexivity].
Qed.
Lemma validate_names_in_module_err ds e : validate_names_in_module ds = CErr e ->
  exists n, e = DuplicateNameInModule n /\ twice n (names_of ds).
Proof.
  unfold validate_names_in_module. rewrite module_names_repeated.
  destruct (repeated [] _) as [n|] eqn:E; [|discriminate]. intros H. injection H as <-.
  exists n. split; [reflexivity|apply repeated_twice; exact E].
Qed.
Lemma validate_names_in_module_panic ds : validate_names_in_module ds <> CPanic.
Proof. unfold validate_names_in_module. destruct (module_names [] ds); discriminate. Qed.

(** * [each] *)
Lemma each_ok {E A} (f : A -> cres E unit) l : each f l = COk tt <-> forall a, In a l -> f a = COk tt.
Proof.
  induction l as [|a l IH]; cbn [each]; [split; [intros _ a []|reflexivity]|].
  destruct (f a) as [[]|e|] eqn:E1; cbn [cbind].
  - rewrite IH. split; [intros H b [<-|Hb]; [exact E1|apply H; exact Hb]|intros H b Hb; apply H; right; exact Hb].
  - split; [discriminate|]. intros H. specialize (H a (or_introl eq_refl)). congruence.
  - split; [discriminate|]. intros H. specialize (H a (or_introl eq_refl)). congruence.
Qed.
Lemma each_err {E A} (f : A -> cres E unit) l e : each f l = CErr e -> exists a, In a l /\ f a = CErr e.
Proof.
  induction l as [|a l IH]; cbn [each]; [discriminate|].
  destruct (f a) as [[]|e'|] eqn:E1; cbn [cbind]; intros H.
  - apply IH in H as (b & Hb & H). exists b. split; [right; exact Hb|exact H].
  - injection H as ->. exists a. split; [left; reflexivity|exact E1].
  - discriminate.
Qed.
Lemma each_panic {E A} (f : A -> cres E unit) l : each f l = CPanic -> exists a, In a l /\ f a = CPanic.
Proof.
  induction l as [|a l IH]; cbn [each]; [discriminate|].
  destruct (f a) as [[]|e'|] eqn:E1; cbn [cbind]; intros H.
  - apply IH in H as (b & Hb & H). exists b. split; [right; exact Hb|exact H].
  - discriminate.
  - exists a. split; [left; reflexivity|exact E1].
Qed.

(** * Parts of types *)
Lemma externals_parts t : forall e, In e (externals t) <->
  exists p n g, e = (p, n, g) /\ part outside_non_zero (PExternal p n g) t.
Proof.
  assert (Hval : forall ts : punct pty, flat_map externals (p_init ts) ++ externals (p_last ts) = flat_map externals (p_values ts)).
  { intros [l x b]. unfold p_values. cbn. rewrite flat_map_app. cbn. rewrite app_nil_r. reflexivity. }
  assert (Hkids : forall (l : list pty), (forall c, In c l -> forall e, In e (externals c) <-> exists p n g, e = (p, n, g) /\ part outside_non_zero (PExternal p n g) c) ->
     forall e, In e (flat_map externals l) <-> exists p n g c, e = (p, n, g) /\ In c l /\ part outside_non_zero (PExternal p n g) c).
  { intros l H e. rewrite in_flat_map. split.
    - intros (c & Hc & He). apply (H c Hc) in He as (p & n & g & -> & Hp). exists p, n, g, c. auto.
    - intros (p & n & g & c & -> & Hc & Hp). exists c. split; [exact Hc|]. apply (H c Hc). exists p, n, g. auto. }
  assert (Hstep : forall t l, (forall p n g, t <> PExternal p n g) -> outside_non_zero t = true -> children t = l ->
     (forall c, In c l -> forall e, In e (externals c) <-> exists p n g, e = (p, n, g) /\ part outside_non_zero (PExternal p n g) c) ->
     forall e, In e (flat_map externals l) <-> exists p n g, e = (p, n, g) /\ part outside_non_zero (PExternal p n g) t).
  { intros t0 l Hne Hgo Hch IH e. rewrite (Hkids l IH e). split.
    - intros (p & n & g & c & -> & Hc & Hp). exists p, n, g. split; [reflexivity|].
      apply part_child with c; [exact Hgo|rewrite Hch; exact Hc|exact Hp].
    - intros (p & n & g & -> & Hp). inversion Hp as [Heq|c t1 _ Hc Hp']; subst; [exfalso; eapply Hne; reflexivity|].
      exists p, n, g, c. auto. }
  induction t as [p|t IH|k v IHk IHv|t IH|t IH|t IH|ts IH|t n IH|path name|path name ts IH] using pty_ind2; intros e.
  - cbn [externals]. split; [intros []|]. intros (q & n & g & -> & Hp). inversion Hp as [Heq|c t1 _ Hc _]; subst. destruct Hc.
  - cbn [externals]. rewrite <- (app_nil_r (externals t)). change (externals t ++ []) with (flat_map externals [t]).
    apply Hstep; try reflexivity; [discriminate|]. intros c [<-|[]]. exact IH.
  - cbn [externals]. replace (externals k ++ externals v) with (flat_map externals [k; v]) by (cbn; rewrite app_nil_r; reflexivity).
    apply Hstep; try reflexivity; [discriminate|]. intros c [<-|[<-|[]]]; assumption.
  - cbn [externals]. rewrite <- (app_nil_r (externals t)). change (externals t ++ []) with (flat_map externals [t]).
    apply Hstep; try reflexivity; [discriminate|]. intros c [<-|[]]. exact IH.
  - cbn [externals]. rewrite <- (app_nil_r (externals t)). change (externals t ++ []) with (flat_map externals [t]).
    apply Hstep; try reflexivity; [discriminate|]. intros c [<-|[]]. exact IH.
  - cbn [externals]. split; [intros []|]. intros (q & m & g & -> & Hp). inversion Hp as [Heq|c t1 Hgo Hc _]; subst. discriminate Hgo.
  - replace (externals (PTuple ts)) with (flat_map externals (p_values ts)) by (destruct ts; symmetry; exact (Hval (Punct _ _ p_trail))).
    apply Hstep; try reflexivity; [discriminate|exact IH].
  - cbn [externals]. rewrite <- (app_nil_r (externals t)). change (externals t ++ []) with (flat_map externals [t]).
    apply Hstep; try reflexivity; [discriminate|]. intros c [<-|[]]. exact IH.
  - cbn [externals]. split.
    + intros [<-|[]]. exists path, name, None. split; [reflexivity|constructor].
    + intros (q & m & g & -> & Hp). inversion Hp as [Heq|c t1 _ Hc _]; subst; [left; reflexivity|destruct Hc].
  - replace (externals (PExternal path name (Some ts))) with ((path, name, Some ts) :: flat_map externals (p_values ts))
      by (destruct ts; rewrite <- Hval; reflexivity).
    cbn [In]. rewrite (Hkids _ IH e). split.
    + intros [<-|(q & m & g & c & -> & Hc & Hp)].
      * exists path, name, (Some ts). split; [reflexivity|constructor].
      * exists q, m, g. split; [reflexivity|]. apply part_child with c; [reflexivity|exact Hc|exact Hp].
    + intros (q & m & g & -> & Hp). inversion Hp as [Heq|c t1 _ Hc Hp']; subst; [left; reflexivity|].
      right. exists q, m, g, c. auto.
Qed.

(** * Generics *)
Lemma fold_remove_in es : forall u n, In n (fold_left remove_visited es u) <-> In n u /\ ~ In ([], n, None) es.
Proof.
  induction es as [|[[p m] g] es IH]; intros u n; cbn [fold_left In]; [tauto|]. rewrite IH.
  assert (Hr : In n (remove_visited u (p, m, g)) <-> In n u /\ (p, m, g) <> ([], n, None)).
  { unfold remove_visited. destruct p as [|q p]; [destruct g as [g|]|].
    - split; [intros H; split; [exact H|discriminate]|tauto].
    - rewrite filter_In, negb_true_iff. split; intros [H1 H2]; (split; [exact H1|]).
      + intros X. injection X as ->. rewrite str_eqb_refl in H2. discriminate.
      + destruct (str_eqb n m) eqn:E; [|reflexivity]. apply str_eqb_eq in E. subst. congruence.
    - split; [intros H; split; [exact H|discriminate]|tauto]. }
  rewrite Hr. tauto.
Qed.

Lemma left_over fss : forall u n,
  In n (fold_left (fun u fs => validate_field_generics fs u) fss u) <-> In n u /\ ~ used_in outside_non_zero n fss.
Proof.
  induction fss as [|fs fss IH]; intros u n; cbn [fold_left].
  - split; [intros H; split; [exact H|intros (fs & t & [] & _)]|tauto].
  - rewrite IH. unfold validate_field_generics. rewrite fold_remove_in.
    assert (He : In ([], n, None) (flat_map externals (field_types fs)) <-> exists t, In t (field_types fs) /\ uses outside_non_zero n t).
    { rewrite in_flat_map. split; intros (t & Ht & H); exists t; (split; [exact Ht|]).
      - apply externals_parts in H as (p & m & g & He & Hp). injection He as <- <- <-. exact Hp.
      - apply externals_parts. exists [], n, None. auto. }
    rewrite He. split.
    + intros ((H1 & H2) & H3). split; [exact H1|]. intros (fs' & t & [<-|Hin] & Ht & Hu).
      * apply H2. exists t. auto.
      * apply H3. exists fs', t. auto.
    + intros (H1 & H2). split; [split; [exact H1|]|].
      * intros (t & Ht & Hu). apply H2. exists fs, t. split; [left; reflexivity|auto].
      * intros (fs' & t & Hin & Ht & Hu). apply H2. exists fs', t. split; [right; exact Hin|auto].
Qed.

Lemma validate_generics_ok pick g fss : validate_generics pick (Some g) fss = COk tt <->
  NoDup (p_values g) /\ forall n, In n (p_values g) -> used_in outside_non_zero n fss.
Proof.
  unfold validate_generics. destruct (repeated [] (p_values g)) as [n|] eqn:E.
  - split; [discriminate|]. intros [H _]. exfalso. exact (twice_not_NoDup _ _ (repeated_twice _ _ E) H).
  - apply repeated_none in E as [Hn _].
    set (u := fold_left _ fss (p_values g)).
    destruct (nth_error u _) as [n|] eqn:En.
    + split; [discriminate|]. intros [_ H]. apply nth_error_In in En. apply left_over in En as [H1 H2].
      exfalso. apply H2, H. exact H1.
    + split; [intros _|reflexivity]. split; [exact Hn|].
      assert (Hu : u = []).
      { destruct u as [|x u'] eqn:Eu; [reflexivity|]. exfalso. apply nth_error_None in En.
        pose proof (Nat.mod_upper_bound (pick (x :: u')) (length (x :: u'))) as Hb. cbn [length] in *. lia. }
      intros n Hin. (* decidable: in the left-over list or used *)
      assert (Hd : ~ In n u) by (rewrite Hu; intros []).
      unfold u in Hd. rewrite left_over in Hd.
      assert (Hdec : In ([], n, None) (flat_map externals (flat_map field_types fss)) \/ ~ In ([], n, None) (flat_map externals (flat_map field_types fss))).
      { destruct (existsb (fun e => match e with ([], m, None) => str_eqb n m | _ => false end) (flat_map externals (flat_map field_types fss))) eqn:Ex.
        - left. apply existsb_exists in Ex as ([[p m] g'] & Hin' & Hm). destruct p; [|discriminate]. destruct g'; [discriminate|].
          apply str_eqb_eq in Hm. subst. exact Hin'.
        - right. intros Hin'. assert (Ht : existsb (fun e => match e with ([], m, None) => str_eqb n m | _ => false end) (flat_map externals (flat_map field_types fss)) = true).
          { apply existsb_exists. exists ([], n, None). split; [exact Hin'|apply str_eqb_refl]. }
          congruence. }
      destruct Hdec as [H|H].
      * apply in_flat_map in H as (t & Ht & He). apply in_flat_map in Ht as (fs & Hfs & Ht).
        apply externals_parts in He as (p & m & g' & Heq & Hp). injection Heq as <- <- <-. exists fs, t. auto.
      * exfalso. apply Hd. split; [exact Hin|]. intros (fs & t & Hfs & Ht & Hp). apply H.
        apply in_flat_map. exists t. split; [apply in_flat_map; exists fs; auto|].
        apply externals_parts. exists [], n, None. auto.
Qed.

Lemma validate_generics_err pick g fss e : validate_generics pick g fss = CErr e ->
  exists g0, g = Some g0 /\
  ((exists n, e = DuplicateGenericName n /\ twice n (p_values g0))
   \/ (exists n, e = UnusedGeneric n /\ In n (p_values g0) /\ ~ used_in outside_non_zero n fss)).
Proof.
  unfold validate_generics. destruct g as [g|]; [|discriminate]. intros H. exists g. split; [reflexivity|].
  destruct (repeated [] (p_values g)) as [n|] eqn:E.
  - injection H as <-. left. exists n. split; [reflexivity|apply repeated_twice; exact E].
  - destruct (nth_error _ _) as [n|] eqn:En; [|discriminate]. injection H as <-. right. exists n.
    split; [reflexivity|]. apply nth_error_In in En. apply left_over in En. exact En.
Qed.
Lemma validate_generics_panic pick g fss : validate_generics pick g fss <> CPanic.
Proof.
  unfold validate_generics. destruct g as [g|]; [|discriminate].
  destruct (repeated [] (p_values g)); [discriminate|]. destruct (nth_error _ _); discriminate.
Qed.

(** * Tuples *)
Lemma tuple_amount_none n : tuple_amount n = None <-> arity_ok n.
Proof.
  unfold tuple_amount, arity_ok. destruct n as [|[|n]]; [split; [discriminate|lia]|split; [discriminate|lia]|].
  destruct (Nat.leb_spec (S (S n)) 12); split; intros; (discriminate || lia || reflexivity).
Qed.
Lemma or_else_none {A} (a b : option A) : or_else a b = None <-> a = None /\ b = None.
Proof. destruct a; cbn; split; intros H; try tauto; try discriminate; try (destruct H; discriminate). Qed.
Lemma first_some_none {A B} (f : A -> option B) l : first_some f l = None <-> forall a, In a l -> f a = None.
Proof.
  induction l as [|a l IH]; cbn; [split; [intros _ a []|reflexivity]|]. rewrite or_else_none. fold (first_some f l). rewrite IH.
  split; [intros [H1 H2] b [<-|Hb]; auto|intros H; split; [apply H; left; reflexivity|intros b Hb; apply H; right; exact Hb]].
Qed.

Lemma tuples_ok_step go t : go t = true -> (forall ts, t <> PTuple ts) ->
  (tuples_ok go t <-> forall c, In c (children t) -> tuples_ok go c).
Proof.
  intros Hgo Hne. split.
  - intros H c Hc ts Hp. apply H. apply part_child with c; assumption.
  - intros H ts Hp. inversion Hp as [Heq|c t1 _ Hc Hp']; subst; [exfalso; apply (Hne ts); reflexivity|]. exact (H c Hc ts Hp').
Qed.

Lemma bad_tuple_none t : bad_tuple t = None <-> tuples_ok outside_non_zero t.
Proof.
  assert (Hval : forall (ts : punct pty), or_else (first_some bad_tuple (p_init ts)) (bad_tuple (p_last ts)) = None
      <-> forall c, In c (p_values ts) -> bad_tuple c = None).
  { intros [l x b]. rewrite or_else_none, first_some_none. unfold p_values. cbn. split.
    - intros [H1 H2] c Hc. apply in_app_or in Hc as [Hc|[<-|[]]]; auto.
    - intros H. split; [intros a Ha; apply H, in_or_app; left; exact Ha|apply H, in_or_app; right; left; reflexivity]. }
  induction t as [p|t IH|k v IHk IHv|t IH|t IH|t IH|ts IH|t n IH|path name|path name ts IH] using pty_ind2.
  - cbn [bad_tuple]. split; [intros _ ts Hp|reflexivity]. inversion Hp as [Heq|c t1 _ Hc _]; subst. destruct Hc.
  - cbn [bad_tuple]. rewrite (tuples_ok_step _ (PVec t)) by (reflexivity || discriminate). cbn [children In].
    rewrite IH. split; [intros H c [<-|[]]; exact H|intros H; apply H; left; reflexivity].
  - cbn [bad_tuple]. rewrite (tuples_ok_step _ (PHashMap k v)) by (reflexivity || discriminate). cbn [children In].
    rewrite or_else_none, IHk, IHv. split; [intros [H1 H2] c [<-|[<-|[]]]; assumption|intros H; split; apply H; auto].
  - cbn [bad_tuple]. rewrite (tuples_ok_step _ (PHashSet t)) by (reflexivity || discriminate). cbn [children In].
    rewrite IH. split; [intros H c [<-|[]]; exact H|intros H; apply H; left; reflexivity].
  - cbn [bad_tuple]. rewrite (tuples_ok_step _ (POption t)) by (reflexivity || discriminate). cbn [children In].
    rewrite IH. split; [intros H c [<-|[]]; exact H|intros H; apply H; left; reflexivity].
  - cbn [bad_tuple]. split; [intros _ ts Hp|reflexivity]. inversion Hp as [Heq|c t1 Hgo Hc _]; subst. discriminate Hgo.
  - replace (bad_tuple (PTuple ts)) with (or_else (tuple_amount (p_len ts)) (or_else (first_some bad_tuple (p_init ts)) (bad_tuple (p_last ts))))
      by (destruct ts; reflexivity).
    rewrite or_else_none, tuple_amount_none, Hval. split.
    + intros [H1 H2] us Hp. inversion Hp as [Heq|c t1 _ Hc Hp']; subst; [exact H1|].
      exact (proj1 (IH c Hc) (H2 c Hc) us Hp').
    + intros H. split; [apply H; constructor|]. intros c Hc. apply (IH c Hc). intros us Hp. apply H.
      apply part_child with c; [reflexivity|exact Hc|exact Hp].
  - cbn [bad_tuple]. rewrite (tuples_ok_step _ (PArray t n)) by (reflexivity || discriminate). cbn [children In].
    rewrite IH. split; [intros H c [<-|[]]; exact H|intros H; apply H; left; reflexivity].
  - cbn [bad_tuple]. split; [intros _ ts Hp|reflexivity]. inversion Hp as [Heq|c t1 _ Hc _]; subst. destruct Hc.
  - replace (bad_tuple (PExternal path name (Some ts))) with (or_else (first_some bad_tuple (p_init ts)) (bad_tuple (p_last ts)))
      by (destruct ts; reflexivity).
    rewrite Hval. rewrite (tuples_ok_step _ (PExternal path name (Some ts))) by (reflexivity || discriminate). cbn [children].
    split; intros H c Hc; apply (IH c Hc), H, Hc.
Qed.

Lemma validate_tuple_size_ok t : validate_tuple_size t = COk tt <-> tuples_ok outside_non_zero t.
Proof.
  unfold validate_tuple_size. rewrite <- bad_tuple_none. destruct (bad_tuple t); split; (discriminate || reflexivity).
Qed.
Lemma validate_field_tuples_ok fs : validate_field_tuples fs = COk tt <->
  forall t, In t (field_types fs) -> tuples_ok outside_non_zero t.
Proof.
  unfold validate_field_tuples. rewrite each_ok. split; intros H t Ht; apply validate_tuple_size_ok, H, Ht.
Qed.
Lemma validate_tuple_size_panic t : validate_tuple_size t <> CPanic.
Proof. unfold validate_tuple_size. destruct (bad_tuple t); discriminate. Qed.

(** * Whole schemas *)
Lemma cbind_ok {E A B} (m : cres E A) (f : A -> cres E B) b : cbind m f = COk b <-> exists a, m = COk a /\ f a = COk b.
Proof.
  destruct m as [a|e|]; cbn [cbind]; split.
  - intros H. exists a. auto.
  - intros (a' & H & Hf). injection H as ->. exact Hf.
  - discriminate.
  - intros (a' & H & _). discriminate.
  - discriminate.
  - intros (a' & H & _). discriminate.
Qed.
Lemma cbind_unit {E B} (m : cres E unit) (f : unit -> cres E B) b : cbind m f = COk b <-> m = COk tt /\ f tt = COk b.
Proof. rewrite cbind_ok. split; [intros ([] & H); exact H|intros H; exists tt; exact H]. Qed.

(** What a valid definition satisfies (not looking into modules). *)
Definition own_ok (pick : list str -> nat) (chk : bool) (d : pdef F) : Prop :=
  match d with
  | PModule _ _ ds => validate_names_in_module ds = COk tt
  | PStruct _ _ _ g fs =>
      validate_field_ids chk fs = COk tt /\ validate_field_names fs = COk tt
      /\ validate_generics pick g [fs] = COk tt /\ validate_field_tuples fs = COk tt
  | PEnum _ _ _ g vs =>
      validate_enum_ids chk vs = COk tt /\ validate_enum_names vs = COk tt
      /\ validate_generics pick g (map pv_fields (p_values vs)) = COk tt
      /\ forall v, In v (p_values vs) -> validate_field_tuples (pv_fields v) = COk tt
  | PAlias _ _ _ t | PConst _ _ t _ => validate_tuple_size t = COk tt
  | PImport _ _ => True
  end.

Lemma validate_definition_ok pick chk d : validate_definition pick chk d = COk tt <->
  own_ok pick chk d /\ match d with PModule _ _ ds => forall x, within x ds -> own_ok pick chk x | _ => True end.
Proof.
  induction d as [c n ds IH|c a n g fs|c a n g vs|c n g t|c n t v|s e] using pdef_ind2; cbn [validate_definition own_ok].
  - rewrite cbind_unit, each_ok. split.
    + intros [H1 H2]. split; [exact H1|]. intros x Hx.
      assert (Hall : forall d, In d ds -> own_ok pick chk d /\ match d with PModule _ _ ds' => forall y, within y ds' -> own_ok pick chk y | _ => True end).
      { intros d Hd. apply (IH d Hd), H2, Hd. }
      inversion Hx as [? Hin|c' n' sub ? Hm Hw]; subst; [apply Hall; exact Hin|].
      destruct (Hall _ Hm) as [_ Hs]. apply Hs. exact Hw.
    + intros [H1 H2]. split; [exact H1|]. intros d Hd. apply (IH d Hd). split; [apply H2; constructor; exact Hd|].
      destruct d; try exact I. intros y Hy. apply H2. eapply within_module; [exact Hd|exact Hy].
  - rewrite !cbind_unit. tauto.
  - rewrite !cbind_unit, each_ok. tauto.
  - tauto.
  - tauto.
  - split; [intros _; split; exact I|reflexivity].
Qed.

Lemma validate_schema_ok pick chk (s : pschema F) : validate_schema pick chk s = COk tt <->
  NoDup (names_of (ps_defs s)) /\ forall d, within d (ps_defs s) -> own_ok pick chk d.
Proof.
  unfold validate_schema. rewrite cbind_unit, validate_names_in_module_ok.
  split; intros [H1 H2]; (split; [exact H1|]).
  - pose proof (proj1 (validate_definition_ok pick chk (PModule [] [] (ps_defs s)))) as H.
    cbn [validate_definition own_ok] in H. rewrite cbind_unit in H. apply H. split; [apply validate_names_in_module_ok; exact H1|exact H2].
  - rewrite each_ok. intros d Hd. apply validate_definition_ok. split; [apply H2; constructor; exact Hd|].
    destruct d; try exact I. intros y Hy. apply H2. eapply within_module; [exact Hd|exact Hy].
Qed.
End Defs.
