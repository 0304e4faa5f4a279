(** C95: what is shown of the encoded size of a type has the ranges of C42 for the type and all its parts, and says which part is which. *)
From Verif Require Import Base Syntax Parser Compiler Meta SizeText.
From Verif Require ParserSpec ParserRound ParserRound2 LowerProofs DocText.
Require Import ZifyN ZifyBool.
Require Coq.Strings.String.
Import Coq.Strings.String.StringSyntax.
Local Open Scope N_scope.

(** * Texts *)
Lemma split_unique (P : N -> Prop) a : forall b c d x y, Forall P a -> Forall P b -> ~ P c -> ~ P d -> a ++ c :: x = b ++ d :: y -> a = b /\ c = d /\ x = y.
Proof.
  induction a as [|p a IH]; intros b c d x y Ha Hb Hc Hd H.
  - destruct b as [|q b]; cbn [app] in H; [injection H as -> ->; auto|]. injection H as -> _. inversion Hb; subst. contradiction.
  - destruct b as [|q b]; cbn [app] in H; [injection H as -> _; inversion Ha; subst; contradiction|]. injection H as -> H. inversion Ha; subst. inversion Hb; subst.
    destruct (IH b c d x y) as (-> & -> & ->); auto.
Qed.
Lemma dec_all n : Forall ParserSpec.digit (dec_str n).
Proof. destruct (ParserRound.dec_str_spec n) as (c & r & -> & H & _). exact H. Qed.
Lemma dec_inj a b : dec_str a = dec_str b -> a = b.
Proof. intros H. rewrite <- (ParserRound2.dec_value_str a), H. apply ParserRound2.dec_value_str. Qed.
Lemma dec_split a b c d x y : ~ ParserSpec.digit c -> ~ ParserSpec.digit d -> dec_str a ++ c :: x = dec_str b ++ d :: y -> a = b /\ c = d /\ x = y.
Proof. intros Hc Hd H. destruct (split_unique _ _ _ _ _ _ _ (dec_all a) (dec_all b) Hc Hd H) as (E & -> & ->). apply dec_inj in E. auto. Qed.
Lemma nd96 : ~ ParserSpec.digit 96. Proof. unfold ParserSpec.digit. lia. Qed.
Lemma nd46 : ~ ParserSpec.digit 46. Proof. unfold ParserSpec.digit. lia. Qed.
Lemma range_inj a m b n x y : range_text a m ++ x = range_text b n ++ y -> a = b /\ m = n /\ x = y.
Proof.
  assert (R : forall a m x, exists c z, ~ ParserSpec.digit c /\ range_text a m ++ x = 96 :: dec_str (match m with Some k => if a =? k then k else a | None => a end) ++ c :: z
    /\ (c = 96 /\ m = Some a /\ z = x \/ c = 46 /\ (m = None /\ z = 46 :: 96 :: x \/ exists k, m = Some k /\ k <> a /\ z = 46 :: dec_str k ++ 96 :: x))).
  { clear. intros a m x. unfold range_text. destruct m as [k|].
    - destruct (a =? k) eqn:E.
      + exists 96, x. split; [exact nd96|]. split; [cbn [app]; rewrite <- ?app_assoc; reflexivity|]. left. replace k with a by lia. auto.
      + exists 46. eexists. split; [exact nd46|]. split; [cbn [app]; rewrite <- ?app_assoc; cbn [app]; rewrite <- ?app_assoc; reflexivity|]. right. split; [reflexivity|]. right. exists k. split; [reflexivity|]. split; [lia|reflexivity].
    - exists 46. eexists. split; [exact nd46|]. split; [cbn [app]; rewrite <- ?app_assoc; reflexivity|]. right. split; [reflexivity|]. left. auto. }
  intros H. destruct (R a m x) as (c & z & Hc & E & C). destruct (R b n y) as (c' & z' & Hc' & E' & C'). rewrite E, E' in H. injection H as H.
  destruct (dec_split _ _ _ _ _ _ Hc Hc' H) as (Ha & <- & <-). clear E E' H Hc Hc' R.
  destruct C as [(-> & -> & ->)|(-> & C)].
  - destruct C' as [(_ & -> & ->)|(C' & _)]; [|discriminate C']. rewrite !N.eqb_refl in Ha. subst. auto.
  - destruct C' as [(C' & _)|(_ & C')]; [discriminate C'|]. destruct C as [(-> & ->)|(k & -> & Hk & ->)]; destruct C' as [(-> & C')|(k' & -> & Hk' & C')].
    + injection C' as ->. auto.
    + injection C' as C'. destruct (ParserRound2.dec_head k') as (h & t & E & Hh). rewrite E in C'. cbn [app] in C'. injection C' as <- _. destruct (nd96 Hh).
    + injection C' as C'. destruct (ParserRound2.dec_head k) as (h & t & E & Hh). rewrite E in C'. cbn [app] in C'. injection C' as -> _. destruct (nd96 Hh).
    + injection C' as C'. destruct (dec_split _ _ _ _ _ _ nd96 nd96 C') as (-> & _ & ->).
      replace (a =? k') with false in Ha by lia. replace (b =? k') with false in Ha by lia. subst. auto.
Qed.

(** * Trees *)
(** Labels without the characters that end them. *)
Inductive fine : wtree -> Prop := fine_W l a m inner : Forall (fun c => c <> 42) l -> Forall (fun p => Forall (fun c => c <> 58) (fst p) /\ forall w, snd p = Some w -> fine w) inner -> fine (W l a m inner).
Fixpoint wtree_ind2 (P : wtree -> Prop) (H : forall l a m inner, Forall (fun p => forall w, snd p = Some w -> P w) inner -> P (W l a m inner)) (w : wtree) : P w :=
  match w with
  | W l a m inner => H l a m inner ((fix go (ps : list (str * option wtree)) : Forall (fun p => forall w, snd p = Some w -> P w) ps :=
      match ps with
      | [] => Forall_nil _
      | (s, Some x) :: ps => @Forall_cons _ (fun p : str * option wtree => forall w, snd p = Some w -> P w) (s, Some x) ps (fun w (E : Some x = Some w) => match E in (_ = o) return (match o return Prop with Some w => P w | None => True end) with eq_refl => wtree_ind2 P H x end) (go ps)
      | (s, None) :: ps => @Forall_cons _ (fun p : str * option wtree => forall w, snd p = Some w -> P w) (s, None) ps (fun w (E : None = Some w) => match E in (_ = o) return (match o return Prop with Some w => P w | None => True end) with eq_refl => I end) (go ps)
      end) inner)
  end.
(** What follows the description of a part: nothing, or a line with at most that indentation. *)
Definition low (i : nat) (r : str) : Prop := r = [] \/ exists k x, (k <= i)%nat /\ r = 10 :: repeat 32 k ++ 45 :: x.
Definition part (i : nat) (p : str * option wtree) : str :=
  [10] ++ repeat 32 (i + 2) ++ tx "- " ++ fst p ++ tx ": " ++ match snd p with Some w => print (i + 2) w | None => tx "_unknown_" end.
Lemma print_parts i l a m inner : print i (W l a m inner) = tx "**" ++ l ++ tx "** " ++ range_text a m ++ flat_map (part i) inner.
Proof. cbn [print]. do 4 f_equal. apply flat_map_ext. intros [s o]. reflexivity. Qed.
Lemma spaces_inj a : forall b x y, repeat 32 a ++ 45 :: x = repeat 32 b ++ 45 :: y -> a = b /\ x = y.
Proof.
  induction a as [|a IH]; intros [|b] x y H; cbn [repeat app] in H; try discriminate; [injection H as ->; auto|]. injection H as H. destruct (IH _ _ _ H) as (-> & ->). auto.
Qed.
Lemma part_low i p r : low (i + 2) (part i p ++ r).
Proof. right. exists (i + 2)%nat. eexists. split; [lia|]. unfold part. cbn [app]. rewrite <- !app_assoc. cbn [app]. reflexivity. Qed.
Lemma low_part i p r s : low i s -> part i p ++ r <> s.
Proof.
  unfold part. intros [->|(k & x & Hk & ->)] H; [discriminate H|]. cbn [app] in H. injection H as H. rewrite <- !app_assoc in H. cbn [app] in H. apply spaces_inj in H. lia.
Qed.
Lemma low_more i j r : (i <= j)%nat -> low i r -> low j r.
Proof. intros Hij [->|(k & x & Hk & ->)]; [left; reflexivity|]. right. exists k, x. split; [lia|reflexivity]. Qed.
Lemma print_inj w : forall i w' r r', fine w -> fine w' -> low i r -> low i r' -> print i w ++ r = print i w' ++ r' -> w = w' /\ r = r'.
Proof.
  induction w as [l a m inner IH] using wtree_ind2. intros i [l' a' m' inner'] r r' Hf Hf' Hr Hr' H. inversion Hf as [? ? ? ? Hl Hi]; subst. inversion Hf' as [? ? ? ? Hl' Hi']; subst.
  rewrite !print_parts, <- !app_assoc in H. cbn [app] in H. injection H as H.
  destruct (split_unique (fun c => c <> 42) l l' 42 42 _ _ Hl Hl' (fun E => E eq_refl) (fun E => E eq_refl) H) as (-> & _ & E). injection E as E.
  destruct (range_inj _ _ _ _ _ _ E) as (-> & -> & E2). clear H E Hf Hf' Hl Hl'.
  assert (G : inner = inner' /\ r = r'); [|destruct G as (-> & ->); auto].
  revert inner' Hi' E2. induction inner as [|[s o] inner IHi]; intros inner' Hi' E2.
  - destruct inner' as [|p' inner']; [split; [reflexivity|exact E2]|]. exfalso. cbn [flat_map] in E2. rewrite <- app_assoc in E2. cbn [app] in E2. exact (low_part _ _ _ _ Hr (eq_sym E2)).
  - destruct inner' as [|[s' o'] inner']; [exfalso; cbn [flat_map] in E2; rewrite <- app_assoc in E2; exact (low_part _ _ _ _ Hr' E2)|].
    cbn [flat_map] in E2. rewrite <- !app_assoc in E2. inversion Hi as [|? ? [Hs Ho] Hi2]; subst. inversion Hi' as [|? ? [Hs' Ho'] Hi2']; subst. inversion IH as [|? ? IHo IH2]; subst. cbn [fst snd] in *.
    assert (Hlow : forall x y, low i y -> low (i + 2) (flat_map (part i) x ++ y)).
    { intros [|p x] y Hy; [apply low_more with i; [lia|exact Hy]|]. cbn [flat_map]. rewrite <- app_assoc. apply part_low. }
    pose proof (Hlow inner r Hr) as Lr. pose proof (Hlow inner' r' Hr') as Lr'. revert E2 Lr Lr'.
    set (R := flat_map (part i) inner ++ r). set (R' := flat_map (part i) inner' ++ r'). intros E2 Lr Lr'.
    unfold part in E2. cbn [fst snd app] in E2. injection E2 as E2. rewrite <- !app_assoc in E2. apply app_inv_head in E2. cbn [app] in E2. injection E2 as E2. rewrite <- !app_assoc in E2. cbn [app] in E2.
    destruct (split_unique (fun c => c <> 58) s s' 58 58 _ _ Hs Hs' (fun E => E eq_refl) (fun E => E eq_refl) E2) as (-> & _ & E3). injection E3 as E3.
    assert (K : o = o' /\ R = R').
    { destruct o as [w|], o' as [w'|].
      - destruct (IHo w eq_refl (i + 2)%nat w' R R' (Ho w eq_refl) (Ho' w' eq_refl) Lr Lr' E3) as (-> & ->). auto.
      - destruct w as [lw aw mw iw]. rewrite print_parts in E3. discriminate E3.
      - destruct w' as [lw aw mw iw]. rewrite print_parts in E3. discriminate E3.
      - apply app_inv_head in E3. auto. }
    destruct K as (-> & K). unfold R, R' in K. destruct (IHi IH2 Hi2 inner' Hi2' K) as (-> & ->). auto.
Qed.

(** * What the claim says *)
(** [t'] is the part of [t] that the labels lead to. *)
Inductive Part : sty -> list str -> sty -> Prop :=
| part_self t : Part t [] t
| part_vec t p t' : Part t p t' -> Part (SVec t) (tx "element" :: p) t'
| part_key k v p t' : Part k p t' -> Part (SHashMap k v) (tx "key" :: p) t'
| part_value k v p t' : Part v p t' -> Part (SHashMap k v) (tx "value" :: p) t'
| part_set t p t' : Part t p t' -> Part (SHashSet t) (tx "element" :: p) t'
| part_option t p t' : Part t p t' -> Part (SOption t) (tx "value" :: p) t'
| part_nonzero t p t' : Part t p t' -> Part (SNonZero t) (tx "value" :: p) t'
| part_array t n p t' : Part t p t' -> Part (SArray t n) (tx "element" :: p) t'
| part_tuple ts i t p t' : nth_error ts i = Some t -> Part t p t' -> Part (STuple ts) (dec_str (N.of_nat i) :: p) t'.
(** The labels lead to this place of a description. *)
Inductive Shown : option wtree -> list str -> option wtree -> Prop :=
| shown_self o : Shown o [] o
| shown_part l a m inner s o p o' : In (s, o) inner -> Shown o p o' -> Shown (Some (W l a m inner)) (s :: p) o'.
(** Types up to the names (and arguments) of definitions, whose sizes are not known, and the lengths of arrays. *)
Fixpoint outline (t : sty) : sty :=
  match t with
  | SPrim p => SPrim p
  | SVec t => SVec (outline t)
  | SHashMap k v => SHashMap (outline k) (outline v)
  | SHashSet t => SHashSet (outline t)
  | SOption t => SOption (outline t)
  | SNonZero t => SNonZero (outline t)
  | STuple ts => STuple (map outline ts)
  | SArray t _ => SArray (outline t) 0
  | SExternal _ _ _ => SExternal [] [] []
  end.

(** * The proofs *)
Lemma min_sum l : flat_map (fun o => match o with Some s => [t_min s] | None => [] end) l = flat_map (fun o => match o with Some s => [w_min s] | None => [] end) (map (option_map t_size) l).
Proof. induction l as [|[w|] l IH]; [reflexivity|cbn; f_equal; exact IH|exact IH]. Qed.
Lemma max_sum l : map (fun o => obind o t_max) l = map (fun o => obind o w_max) (map (option_map t_size) l).
Proof. induction l as [|[w|] l IH]; [reflexivity|cbn; f_equal; exact IH|cbn; f_equal; exact IH]. Qed.
(** Every description has the range that [wire_size] computes, about which C42 speaks. *)
Theorem C95_ranges : forall t, option_map t_size (size_tree t) = wire_size t.
Proof.
  induction t as [p|t IH|k v IHk IHv|t IH|t IH|t IH|ts IH|t n IH|path name ts IH] using LowerProofs.sty_ind2; cbn [size_tree wire_size option_map]; try reflexivity.
  - unfold prim_tree, t_size. cbn [t_min t_max]. destruct (wire_prim p); reflexivity.
  - rewrite <- IH. destruct (size_tree t) as [[]|]; reflexivity.
  - rewrite <- IH. destruct (size_tree t) as [[]|]; reflexivity.
  - assert (E : map wire_size ts = map (option_map t_size) (map size_tree ts)). { rewrite map_map. apply map_ext_in. intros x Hx. symmetry. apply IH, Hx. }
    rewrite E. unfold wire_tuple, t_size. cbn [t_min t_max]. rewrite min_sum, max_sum. reflexivity.
  - unfold wire_array. rewrite <- IH. destruct (size_tree t) as [[]|]; reflexivity.
Qed.
Lemma nth_combine ts : forall s i t, nth_error ts i = Some t -> In (dec_str (N.of_nat (s + i)), size_tree t) (combine (map (fun i => dec_str (N.of_nat i)) (seq s (length ts))) (map size_tree ts)).
Proof.
  induction ts as [|x ts IH]; intros s [|i] t H; [discriminate|discriminate| |].
  - injection H as ->. left. rewrite Nat.add_0_r. reflexivity.
  - right. replace (s + S i)%nat with (S s + i)%nat by lia. apply IH. exact H.
Qed.
(** ... also those of its parts, at the place their labels say. *)
Theorem C95_parts : forall t p t', Part t p t' -> exists o, Shown (size_tree t) p o /\ option_map t_size o = wire_size t'.
Proof.
  intros t p t' H. exists (size_tree t'). split; [|apply C95_ranges].
  induction H; try constructor; cbn [size_tree]; eapply shown_part; try eassumption; try (cbn; tauto).
  exact (nth_combine ts 0 i t H).
Qed.
Lemma dec_no n c : ~ ParserSpec.digit c -> Forall (fun x => x <> c) (dec_str n).
Proof. intros Hc. eapply Forall_impl; [|apply dec_all]. cbn. intros a Ha ->. exact (Hc Ha). Qed.
Ltac lit_fine := repeat constructor; discriminate.
Lemma fine_leaf l a m : Forall (fun c => c <> 42) l -> fine (W l a m []).
Proof. intros H. constructor; [exact H|constructor]. Qed.
Lemma fine_length : fine (prim_tree PrU64).
Proof. apply fine_leaf. lit_fine. Qed.
Lemma fine_tree t : forall w, size_tree t = Some w -> fine w.
Proof.
  induction t as [p|t IH|k v IHk IHv|t IH|t IH|t IH|ts IH|t n IH|path name ts IH] using LowerProofs.sty_ind2; intros w E; cbn [size_tree] in E; try discriminate; injection E as <-.
  - apply fine_leaf. destruct p; lit_fine.
  - constructor; [lit_fine|]. constructor; [split; [lit_fine|intros w E; injection E as <-; exact fine_length]|]. constructor; [split; [lit_fine|exact IH]|constructor].
  - constructor; [lit_fine|]. constructor; [split; [lit_fine|intros w E; injection E as <-; exact fine_length]|]. constructor; [split; [lit_fine|exact IHk]|]. constructor; [split; [lit_fine|exact IHv]|constructor].
  - constructor; [lit_fine|]. constructor; [split; [lit_fine|intros w E; injection E as <-; exact fine_length]|]. constructor; [split; [lit_fine|exact IH]|constructor].
  - constructor; [lit_fine|]. constructor; [split; [lit_fine|exact IH]|constructor].
  - constructor; [lit_fine|]. constructor; [split; [lit_fine|exact IH]|constructor].
  - constructor; [lit_fine|]. apply Forall_forall. intros [s o] H. cbn [fst snd]. split.
    + apply in_combine_l in H. unfold indices in H. apply in_map_iff in H. destruct H as (i & <- & _). apply dec_no. unfold ParserSpec.digit. lia.
    + intros w ->. apply in_combine_r in H. apply in_map_iff in H. destruct H as (t & Ht & Hin). exact (IH t Hin w Ht).
  - constructor; [lit_fine|]. constructor; [split; [lit_fine|]|].
    + intros w E. cbn [snd] in E. injection E as <-. apply fine_leaf. lit_fine.
    + constructor; [split; [lit_fine|exact IH]|constructor].
Qed.
Lemma tree_outline t : forall t', size_tree t = size_tree t' -> outline t = outline t'.
Proof.
  induction t as [p|t IH|k v IHk IHv|t IH|t IH|t IH|ts IH|t n IH|path name ts IH] using LowerProofs.sty_ind2; intros t' E.
  1: destruct t' as [q| | | | | | | |]; try (destruct p; discriminate E); [|discriminate E..]; cbn [size_tree] in E; assert (El : prim_label p = prim_label q) by (unfold prim_tree in E; congruence); destruct p, q; first [reflexivity|discriminate El].
  all: destruct t' as [q| | | | | | | |]; try (cbn [size_tree] in E; destruct q; discriminate E); try discriminate E; cbn [size_tree] in E; cbn [outline].
  - f_equal. apply IH. congruence.
  - f_equal; [apply IHk|apply IHv]; congruence.
  - f_equal. apply IH. congruence.
  - f_equal. apply IH. congruence.
  - f_equal. apply IH. congruence.
  - f_equal. assert (Ec : combine (indices (length ts)) (map size_tree ts) = combine (indices (length ts0)) (map size_tree ts0)) by congruence.
    assert (Em : forall l : list sty, map snd (combine (indices (length l)) (map size_tree l)) = map size_tree l).
    { intros l. assert (L : length (indices (length l)) = length (map size_tree l)) by (unfold indices; rewrite !map_length, seq_length; reflexivity).
      revert L. generalize (indices (length l)) (map size_tree l). intros a. induction a as [|x a IHa]; intros [|y b] L; try discriminate L; [reflexivity|]. cbn. f_equal. apply IHa. cbn in L. lia. }
    assert (E2 : map size_tree ts = map size_tree ts0) by (rewrite <- (Em ts), <- (Em ts0), Ec; reflexivity). clear E Ec Em.
    revert ts0 E2. induction ts as [|x ts IHt]; intros [|y ts0] E2; try discriminate E2; [reflexivity|]. cbn [map] in E2. injection E2 as E3 E2. cbn [map]. f_equal.
    + apply IH; [left; reflexivity|exact E3].
    + apply IHt; [intros z Hz; apply IH; right; exact Hz|exact E2].
  - f_equal. apply IH. congruence.
  - reflexivity.
Qed.
(** The text says all of it: two types with the same text have the same description, and are the same up to what has no known size and the lengths of
    arrays (of which the range of the array speaks). *)
Theorem C95_unambiguous : forall t t', size_text t = size_text t' -> size_tree t = size_tree t' /\ outline t = outline t'.
Proof.
  intros t t' H. assert (E : size_tree t = size_tree t'); [|split; [exact E|apply tree_outline, E]].
  unfold size_text in H. destruct (size_tree t) as [w|] eqn:Et, (size_tree t') as [w'|] eqn:Et'.
  - f_equal. eapply (print_inj w 0 w' [] []); [eapply fine_tree, Et|eapply fine_tree, Et'|left; reflexivity|left; reflexivity|]. rewrite !app_nil_r. exact H.
  - destruct w. rewrite print_parts in H. discriminate H.
  - destruct w'. rewrite print_parts in H. discriminate H.
  - reflexivity.
Qed.
Print Assumptions C95_ranges.
Print Assumptions C95_parts.
Print Assumptions C95_unambiguous.

(** The label is the name of the type in mabo: all of it, or what is in front of its arguments.  Arrays and tuples have no name. *)
Theorem C95_labels : forall t l a m inner, size_tree t = Some (W l a m inner) ->
  (exists ts, t = STuple ts) \/ (exists t' n, t = SArray t' n) \/ DocText.dp_type t = l \/ exists args, DocText.dp_type t = l ++ tx "<" ++ args.
Proof.
  intros t l a m inner H. destruct t as [p|t|k v|t|t|t|ts|t n|path name ts]; cbn [size_tree] in H; try discriminate.
  1: right; right; left; unfold prim_tree in H; assert (E : l = prim_label p) by congruence; rewrite E; destruct p; reflexivity.
  6: left; eexists; reflexivity.
  6: right; left; eexists; eexists; reflexivity.
  all: right; right; right; injection H as <- _ _ _; eexists; reflexivity.
Qed.
Print Assumptions C95_labels.

(** Refuted for the editor: the text is Markdown there, and in Markdown (CommonMark 6.6) the label of [box<string>] and of [box<bytes>] contains a
    tag, which is not shown as text. *)
Definition letter (c : N) : bool := ((65 <=? c) && (c <=? 90)) || ((97 <=? c) && (c <=? 122)).
Definition open_tag (s : str) : Prop := exists c n, letter c = true /\ forallb (fun c => letter c || ((48 <=? c) && (c <=? 57)) || (c =? 45)) n = true /\ s = 60 :: c :: n ++ [62].
Theorem C95_box_refuted : forall p, p = PrBoxString \/ p = PrBoxBytes -> exists before tag after,
  size_text (SPrim p) = before ++ tag ++ after /\ open_tag tag /\ Forall (fun c => c <> 96 /\ c <> 92) before.
Proof.
  intros p [->| ->].
  - exists (tx "**box"), (tx "<string>"), (tx "** `1..`"). split; [vm_compute; reflexivity|]. split; [exists 115, (tx "tring"); vm_compute; auto|]. repeat constructor; discriminate.
  - exists (tx "**box"), (tx "<bytes>"), (tx "** `1..`"). split; [vm_compute; reflexivity|]. split; [exists 98, (tx "ytes"); vm_compute; auto|]. repeat constructor; discriminate.
Qed.
Print Assumptions C95_box_refuted.

(** An example. *)
Example C95_ex : size_text (STuple [SOption (SArray (SPrim PrU32) 12); SExternal [] (tx "A") []; SPrim PrBool]) = tx "**tuple** `1..`
  - 0: **option** `0..62`
    - value: **array** `13..61`
      - length: **u64** `1`
      - element: **u32** `1..5`
  - 1: _unknown_
  - 2: **bool** `1`".
Proof. vm_compute. reflexivity. Qed.
Example C95_ex_part : Part (STuple [SOption (SArray (SPrim PrU32) 12); SExternal [] (tx "A") []; SPrim PrBool]) [tx "0"; tx "value"; tx "element"] (SPrim PrU32).
Proof. apply (part_tuple _ 0 (SOption (SArray (SPrim PrU32) 12))); [reflexivity|]. repeat constructor. Qed.
