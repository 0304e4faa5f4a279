(** The generated code type checks exactly for the schemas described in RustSpec.v. *)
From Verif Require Import Base Varint Wire Codec Compiler SchemaSpec RustCode RustEval RustTyping RustSpec Safety.
Local Open Scope N_scope.

(** * Equality tests *)
Lemma name_eqb_eq x y : list_eqb N.eqb x y = true <-> x = y.
Proof.
  revert y. induction x as [|a x IH]; intros [|b y]; cbn [list_eqb]; try (split; (discriminate || reflexivity)).
  rewrite andb_true_iff, N.eqb_eq, IH. split; [intros [-> ->]; reflexivity|intros H; injection H as -> ->; tauto].
Qed.
Lemma name_eqb_refl x : list_eqb N.eqb x x = true.
Proof. apply name_eqb_eq. reflexivity. Qed.
Lemma name_eqb_neq x y : x <> y -> list_eqb N.eqb x y = false.
Proof. intros H. destruct (list_eqb N.eqb x y) eqn:E; [|reflexivity]. apply name_eqb_eq in E. contradiction. Qed.

Lemma find_var_eq {A} x (a : A) l : find_var x ((x, a) :: l) = Some a.
Proof. cbn [find_var]. rewrite name_eqb_refl. reflexivity. Qed.
Lemma find_var_neq {A} x y (a : A) l : x <> y -> find_var x ((y, a) :: l) = find_var x l.
Proof. intros H. cbn [find_var]. rewrite (name_eqb_neq x y H). reflexivity. Qed.

Lemma width_eqb_eq a b : width_eqb a b = true <-> a = b.
Proof. destruct a, b; cbn; split; (discriminate || reflexivity). Qed.
Lemma scalar_eqb_eq a b : scalar_eqb a b = true <-> a = b.
Proof.
  destruct a, b; cbn [scalar_eqb]; try (split; (discriminate || reflexivity));
    rewrite width_eqb_eq; (split; [intros ->; reflexivity|intros H; injection H as ->; reflexivity]).
Qed.

Section RtyInd.
Variable P : rty -> Prop.
Hypothesis Hs : forall s, P (RS s).
Hypothesis Hnz : forall s, P (RNzInt s).
Hypothesis Hp : forall i, P (RParam i).
Hypothesis Hc : P RUsize /\ P RUnit /\ P RString /\ P RStr /\ P RBoxStr /\ P RBoxBytes /\ P RBytesB /\ P RWriterT /\ P RReaderT /\ P RFieldIdT.
Hypothesis H1 : forall t, P t -> P (RVec t) /\ P (RSlice t) /\ P (RSet t) /\ P (ROption t) /\ P (RNonZero t) /\ P (RRef t) /\ forall n, P (RArray t n).
Hypothesis Hm : forall k v, P k -> P v -> P (RMap k v).
Hypothesis Ht : forall ts, Forall P ts -> P (RTuple ts) /\ forall i, P (RAdt i ts).
Fixpoint rty_ind2 (t : rty) : P t :=
  let go := fix go (l : list rty) : Forall P l :=
    match l with [] => Forall_nil _ | x :: l' => Forall_cons x (rty_ind2 x) (go l') end in
  match t with
  | RS s => Hs s | RNzInt s => Hnz s | RParam i => Hp i
  | RUsize => proj1 Hc
  | RUnit => proj1 (proj2 Hc)
  | RString => proj1 (proj2 (proj2 Hc))
  | RStr => proj1 (proj2 (proj2 (proj2 Hc)))
  | RBoxStr => proj1 (proj2 (proj2 (proj2 (proj2 Hc))))
  | RBoxBytes => proj1 (proj2 (proj2 (proj2 (proj2 (proj2 Hc)))))
  | RBytesB => proj1 (proj2 (proj2 (proj2 (proj2 (proj2 (proj2 Hc))))))
  | RWriterT => proj1 (proj2 (proj2 (proj2 (proj2 (proj2 (proj2 (proj2 Hc)))))))
  | RReaderT => proj1 (proj2 (proj2 (proj2 (proj2 (proj2 (proj2 (proj2 (proj2 Hc))))))))
  | RFieldIdT => proj2 (proj2 (proj2 (proj2 (proj2 (proj2 (proj2 (proj2 (proj2 Hc))))))))
  | RVec t => proj1 (H1 t (rty_ind2 t))
  | RSlice t => proj1 (proj2 (H1 t (rty_ind2 t)))
  | RSet t => proj1 (proj2 (proj2 (H1 t (rty_ind2 t))))
  | ROption t => proj1 (proj2 (proj2 (proj2 (H1 t (rty_ind2 t)))))
  | RNonZero t => proj1 (proj2 (proj2 (proj2 (proj2 (H1 t (rty_ind2 t))))))
  | RRef t => proj1 (proj2 (proj2 (proj2 (proj2 (proj2 (H1 t (rty_ind2 t)))))))
  | RArray t n => proj2 (proj2 (proj2 (proj2 (proj2 (proj2 (H1 t (rty_ind2 t))))))) n
  | RMap k v => Hm k v (rty_ind2 k) (rty_ind2 v)
  | RTuple ts => proj1 (Ht ts (go ts))
  | RAdt i ts => proj2 (Ht ts (go ts)) i
  end.
End RtyInd.

Lemma list_eqb_forall {A} (eqb : A -> A -> bool) l :
  Forall (fun x => forall y, eqb x y = true <-> x = y) l -> forall m, list_eqb eqb l m = true <-> l = m.
Proof.
  induction 1 as [|x l Hx Hl IH]; intros [|y m]; cbn [list_eqb]; try (split; (discriminate || reflexivity)).
  rewrite andb_true_iff, (Hx y), IH. split; [intros [-> ->]; reflexivity|intros H; injection H as -> ->; tauto].
Qed.
Lemma rty_eqb_eq a : forall b, rty_eqb a b = true <-> a = b.
Proof.
  apply (rty_ind2 (fun a => forall b, rty_eqb a b = true <-> a = b)); clear a.
  1,2: intros s []; cbn [rty_eqb]; try (split; discriminate); rewrite scalar_eqb_eq; (split; [intros ->; reflexivity|intros H; injection H as ->; reflexivity]).
  - intros i []; cbn [rty_eqb]; try (split; discriminate). rewrite Nat.eqb_eq. split; [intros ->; reflexivity|intros H; injection H as ->; reflexivity].
  - repeat match goal with |- _ /\ _ => split end; intros []; cbn [rty_eqb]; split; (discriminate || reflexivity).
  - intros t IH. repeat match goal with |- _ /\ _ => split end.
    1-6: intros []; cbn [rty_eqb]; try (split; discriminate); rewrite IH; (split; [intros ->; reflexivity|intros H; injection H as ->; reflexivity]).
    intros n []; cbn [rty_eqb]; try (split; discriminate). rewrite andb_true_iff, Nat.eqb_eq, IH.
    split; [intros [-> ->]; reflexivity|intros H; injection H as -> ->; tauto].
  - intros k v IHk IHv []; cbn [rty_eqb]; try (split; discriminate). rewrite andb_true_iff, IHk, IHv.
    split; [intros [-> ->]; reflexivity|intros H; injection H as -> ->; tauto].
  - intros ts IH. split.
    + intros []; cbn [rty_eqb]; try (split; discriminate). rewrite (list_eqb_forall _ _ IH).
      split; [intros ->; reflexivity|intros H; injection H as ->; reflexivity].
    + intros i []; cbn [rty_eqb]; try (split; discriminate). rewrite andb_true_iff, Nat.eqb_eq, (list_eqb_forall _ _ IH).
      split; [intros [-> ->]; reflexivity|intros H; injection H as -> ->; tauto].
Qed.
Lemma rty_eqb_refl a : rty_eqb a a = true.
Proof. apply rty_eqb_eq. reflexivity. Qed.

(** * Prefix operators *)
Fixpoint refs (n : nat) (e : expr) : expr := match n with O => e | S n' => ERef (refs n' e) end.
Fixpoint rrefs (n : nat) (t : rty) : rty := match n with O => t | S n' => RRef (rrefs n' t) end.
Definition bare (e : expr) : Prop := match e with ERef _ | EDeref _ => False | _ => True end.

Lemma post_bare f e : bare e -> post f e = f e.
Proof. destruct e; cbn [bare post]; tauto || reflexivity. Qed.
Lemma post_refs f n e : bare e -> post f (refs n e) = refs n (f e).
Proof. intros H. induction n as [|n IH]; cbn [refs post]; [apply post_bare; exact H|rewrite IH; reflexivity]. Qed.
Lemma rrefs_add n m t : rrefs n (rrefs m t) = rrefs (n + m) t.
Proof. induction n as [|n IH]; cbn [rrefs Nat.add]; [reflexivity|rewrite IH; reflexivity]. Qed.

Lemma first_rrefs {A} (p : rty -> option A) n t : (forall t', p (RRef t') = None) -> first p (steps (rrefs n t)) = first p (steps t).
Proof. intros Hp. induction n as [|n IH]; [reflexivity|]. cbn [rrefs steps first]. rewrite Hp. exact IH. Qed.
Lemma coerce_rrefs {A} (p : rty -> option A) n t : (forall t', p (RRef t') = None) -> (1 <= n)%nat ->
  coerce p (rrefs n t) = first p (steps t).
Proof. intros Hp Hn. destruct n as [|n]; [lia|]. cbn [rrefs coerce]. apply first_rrefs. exact Hp. Qed.

Lemma all_opt_forall2 {A B} (f : A -> option B) l m : all_opt f l = Some m -> Forall2 (fun a b => f a = Some b) l m.
Proof.
  revert m. induction l as [|a l IH]; intros m; cbn [all_opt]; [intros H; injection H as <-; constructor|].
  destruct (f a) as [b|] eqn:E; [|discriminate]. destruct (all_opt f l) as [bs|]; [|discriminate].
  intros H. injection H as <-. constructor; [exact E|]. apply IH. reflexivity.
Qed.

Section Fit.
Variable bt : bytes_type.
Variable bd : trait -> bool.

Definition nominal_ok (tr : trait) (t : ty) : bool :=
  match rust_type bt t with Some r => impls bd tr r | None => false end.

(** What the type checker demands of [size]; [n] is the number of [&] in front. *)
Fixpoint size_fit (n : nat) (t : ty) {struct t} : bool :=
  match t with
  | TBool | TU8 | TI8 | TUInt _ | TSInt _ | TF32 | TF64 => (n <? 2)%nat
  | TString | TStringRef | TBoxString | TBytes | TBytesRef => true
  | TBoxBytes => match bt with BVecU8 => true | BBytes => false end
  | TVec t' | TArray t' _ | TSet t' => size_fit 0 t'
  | TMap k v => size_fit 0 k && size_fit 0 v
  | TOption t' => (n =? 0)%nat && size_fit 0 t'
  | TNonZero t' =>
      match t' with
      | TU8 | TI8 | TUInt _ | TSInt _ => (n =? 0)%nat
      | TString | TStringRef | TBytes | TBytesRef | TVec _ | TMap _ _ | TSet _ => size_fit 0 t'
      | _ => false
      end
  | TTuple ts => tuple_len_ok ts && forallb (size_fit (S n)) ts
  | TExt _ _ | TParam _ => (n <? 2)%nat && nominal_ok TrSize t
  | TGen _ => false
  end.

Definition is_coll (t : ty) : bool :=
  match t with TString | TStringRef | TBytes | TBytesRef | TVec _ | TMap _ _ | TSet _ => true | _ => false end.

(** The expression [e] is [n] ampersands in front of [e0], whose type is [t] behind [m]
    references. *)
Definition placed (g : ctx) (n m : nat) (e : expr) (t : rty) : Prop :=
  exists e0, bare e0 /\ e = refs n e0 /\ tc bt bd g e0 = Some (rrefs m t) /\ (1 <= n + m)%nat.

Lemma tc_refs g n e : tc bt bd g (refs n e) = option_map (rrefs n) (tc bt bd g e).
Proof.
  induction n as [|n IH]; cbn [refs rrefs tc]; [destruct (tc bt bd g e); reflexivity|].
  rewrite IH. destruct (tc bt bd g e); reflexivity.
Qed.
Lemma placed_type g n m e t : placed g n m e t -> tc bt bd g e = Some (rrefs (n + m) t).
Proof. intros (e0 & _ & -> & Ht & _). rewrite tc_refs, Ht. cbn [option_map]. rewrite rrefs_add. reflexivity. Qed.
Lemma placed_var g x t : placed ((x, RRef t) :: g) 0 1 (EVar x) t.
Proof. exists (EVar x). repeat split; [|lia]. cbn [tc rrefs]. apply find_var_eq. Qed.

(** The result is a [usize], or behind a reference can be added to one. *)
Definition usable (n : nat) (o : option rty) : bool :=
  match n with O => has_type o RUsize | _ => match o with Some t => is_usize t | None => false end end.

Lemma usable_guard n b : usable n (guard b (Some RUsize)) = b.
Proof. destruct n, b; reflexivity. Qed.

Definition strict (t : ty) (n m : nat) : Prop := is_coll t = true \/ m = match n with O => 1%nat | _ => 0%nat end.

Lemma scalar_arg g n m e s : placed g n m e (RS s) -> m = match n with O => 1%nat | _ => 0%nat end ->
  has_type (tc bt bd g (EDeref e)) (RS s) = (n <? 2)%nat.
Proof.
  intros H Hm. cbn [tc]. rewrite (placed_type _ _ _ _ _ H). subst m.
  destruct n as [|[|n]]; cbn [Nat.add rrefs has_type]; try apply rty_eqb_refl; reflexivity.
Qed.
Lemma get_arg g n m e s : placed g n m e (RNzInt s) -> has_type (tc bt bd g (post EGet e)) (RS s) = (n =? 0)%nat.
Proof.
  intros (e0 & Hb & -> & Ht & _). rewrite post_refs by exact Hb. rewrite tc_refs. cbn [tc]. rewrite Ht. cbn [obind].
  rewrite first_rrefs by reflexivity. cbn [steps first as_non_zero option_map].
  destruct n as [|n]; cbn [rrefs has_type]; [apply rty_eqb_refl|reflexivity].
Qed.
Lemma get_placed g n m e t : placed g n m e (RNonZero t) -> placed g n 1 (post EGet e) t.
Proof.
  intros (e0 & Hb & -> & Ht & _). exists (EGet e0). split; [exact I|]. split; [apply post_refs; exact Hb|]. split; [|lia].
  cbn [tc]. rewrite Ht. cbn [obind]. rewrite first_rrefs by reflexivity. reflexivity.
Qed.
Lemma proj_placed g n m e ts i t : placed g n m e (RTuple ts) -> nth_error ts i = Some t ->
  placed g (S n) 0 (ERef (post (EProj i) e)) t.
Proof.
  intros (e0 & Hb & -> & Ht & _) Hi. exists (EProj i e0). split; [exact I|]. split; [cbn [refs]; rewrite post_refs by exact Hb; reflexivity|].
  split; [|lia]. cbn [tc]. rewrite Ht. cbn [obind]. rewrite first_rrefs by reflexivity. cbn [steps first as_tuple]. exact Hi.
Qed.
Lemma as_ref_arg g n m e t : placed g n m e (ROption t) ->
  tc bt bd g (post EAsRef e) = Some (rrefs n (ROption (RRef t))).
Proof.
  intros (e0 & Hb & -> & Ht & _). rewrite post_refs by exact Hb. rewrite tc_refs. cbn [tc]. rewrite Ht. cbn [obind].
  rewrite first_rrefs by reflexivity. reflexivity.
Qed.
Lemma method_arg g n m e tr t r rr (f : expr -> expr) :
  (forall e, tc bt bd g (f e) = method bt bd tr t (tc bt bd g e) rr) -> placed g n m e r ->
  rust_type bt t = Some r -> as_nominal r = Some r ->
  tc bt bd g (post f e) = guard (impls bd tr r) (Some (rrefs n rr)).
Proof.
  intros Hf (e0 & Hb & -> & Ht & _) Hr Hn. rewrite post_refs by exact Hb. rewrite tc_refs, Hf, Ht. unfold method. cbn [obind].
  assert (Hs : first as_nominal (steps (rrefs m r)) = Some r).
  { rewrite first_rrefs by reflexivity. destruct r; try discriminate Hn; reflexivity. }
  rewrite Hs. cbn [obind]. rewrite Hr. cbn [has_type]. rewrite rty_eqb_refl. cbn [andb]. destruct (impls bd tr r); reflexivity.
Qed.

(** The elements of a tuple. *)
Definition gen_size_elems (name : expr) := fix go (i : nat) (l : list ty) : list expr :=
  match l with
  | [] => []
  | t' :: l' => gen_size bt t' (ERef (post (EProj i) name)) :: go (S i) l'
  end.
Definition addable (g : ctx) (e : expr) : bool := match tc bt bd g e with Some t => is_usize t | None => false end.
Definition flat (e : expr) : list expr := match e with ESum l => l | _ => [e] end.

Lemma sum_type g es : (2 <= length (flat_map flat es))%nat ->
  tc bt bd g (sum_of es) = guard (forallb (addable g) (flat_map flat es)) (Some RUsize).
Proof.
  intros H. unfold sum_of. change (flat_map (fun e => match e with ESum l => l | _ => [e] end) es) with (flat_map flat es).
  destruct (flat_map flat es) as [|a [|b l]]; cbn [length] in H; [lia|lia|reflexivity].
Qed.
Lemma forallb_flat_map {A B} (p : B -> bool) (f : A -> list B) l : forallb p (flat_map f l) = forallb (fun a => forallb p (f a)) l.
Proof. induction l as [|a l IH]; [reflexivity|]. cbn [flat_map forallb]. rewrite forallb_app, IH. reflexivity. Qed.

Lemma post_not_sum f e : (forall e, match f e with ESum _ => False | _ => True end) -> match post f e with ESum _ => False | _ => True end.
Proof. intros H. destruct e; cbn [post]; try exact I; apply H. Qed.
(** Only tuples give sums, and these have at least two terms. *)
Lemma flat_size t : forall e, (1 <= length (flat (gen_size bt t e)))%nat
  /\ match gen_size bt t e with ESum l => (2 <= length l)%nat | _ => True end.
Proof.
  induction t as [t Hl|t IH|k v IHk IHv|t IH|t IH|t IH|ts IH|t n IH|i args IH|t IH] using ty_ind'; intros e.
  2-5,8: cbn [gen_size flat length]; split; [lia|exact I].
  - destruct t; try discriminate Hl; cbn [gen_size flat length]; try (split; [lia|exact I]).
    pose proof (post_not_sum (ESizeM (TParam i)) e (fun _ => I)) as H. destruct (post _ e); try (split; [cbn; lia|exact I]). contradiction.
  - destruct t; try (cbn [gen_size flat length]; split; [lia|exact I]); apply IH.
  - cbn [gen_size]. change ((fix go (i : nat) (l : list ty) : list expr := match l with
         | [] => [] | t' :: l' => gen_size bt t' (ERef (post (EProj i) e)) :: go (S i) l' end) 0%nat ts) with (gen_size_elems e 0 ts).
    destruct (tuple_len_ok ts) eqn:Hlen; [|cbn; split; [lia|exact I]].
    assert (H : forall i l, Forall (fun t => forall e, (1 <= length (flat (gen_size bt t e)))%nat /\ match gen_size bt t e with ESum l => (2 <= length l)%nat | _ => True end) l ->
        (length l <= length (flat_map flat (gen_size_elems e i l)))%nat).
    { intros i l Hf. revert i. induction Hf as [|x l Hx Hf IHl]; intros i; [cbn; lia|]. cbn [gen_size_elems flat_map length].
      rewrite app_length. specialize (IHl (S i)). destruct (Hx (ERef (post (EProj i) e))) as [Hx1 _]. fold (gen_size_elems e). lia. }
    specialize (H 0%nat ts IH). unfold tuple_len_ok in Hlen. apply andb_true_iff in Hlen as [Hlen _]. apply Nat.leb_le in Hlen.
    unfold sum_of. change (flat_map (fun e => match e with ESum l => l | _ => [e] end) (gen_size_elems e 0 ts)) with (flat_map flat (gen_size_elems e 0 ts)).
    cbn [flat]. lia.
  - cbn [gen_size]. pose proof (post_not_sum (ESizeM (TExt i args)) e (fun _ => I)) as H. destruct (post _ e); try (split; [cbn; lia|exact I]). contradiction.
  - cbn [gen_size]. pose proof (post_not_sum (ESizeM (TGen t)) e (fun _ => I)) as H. destruct (post _ e); try (split; [cbn; lia|exact I]). contradiction.
Qed.
Lemma flat_addable g t e : forallb (addable g) (flat (gen_size bt t e)) = addable g (gen_size bt t e).
Proof.
  destruct (flat_size t e) as [_ H]. destruct (gen_size bt t e) eqn:Eg; try (cbn [flat forallb]; apply andb_true_r).
  cbn [flat]. unfold addable at 2. cbn [tc]. destruct es as [|a [|b l]]; cbn [length] in H; [lia|lia|].
  unfold addable. destruct (forallb _ (a :: b :: l)) eqn:Ef; reflexivity.
Qed.

Lemma elems_addable g e ts rs n m :
  Forall (fun t => no_gen t = true -> forall n m e g r, rust_type bt t = Some r -> strict t n m -> placed g n m e r ->
            usable n (tc bt bd g (gen_size bt t e)) = size_fit n t) ts ->
  forallb no_gen ts = true -> all_opt (rust_type bt) ts = Some rs -> placed g n m e (RTuple rs) ->
  forallb (addable g) (flat_map flat (gen_size_elems e 0 ts)) = forallb (size_fit (S n)) ts.
Proof.
  intros HF Hg Hr Hp. apply all_opt_forall2 in Hr. rewrite forallb_flat_map.
  assert (H : forall pre rs' ts' i, rs = pre ++ rs' -> length pre = i -> Forall2 (fun a b => rust_type bt a = Some b) ts' rs' ->
     Forall (fun t => no_gen t = true -> forall n m e g r, rust_type bt t = Some r -> strict t n m -> placed g n m e r ->
            usable n (tc bt bd g (gen_size bt t e)) = size_fit n t) ts' -> forallb no_gen ts' = true ->
     forallb (fun a => forallb (addable g) (flat a)) (gen_size_elems e i ts') = forallb (size_fit (S n)) ts').
  { intros pre rs' ts' i Hpre Hi HF2. revert pre i Hpre Hi. induction HF2 as [|t r ts' rs' Htr HF2 IH]; intros pre i Hpre Hi Hall Hng; [reflexivity|].
    cbn [gen_size_elems forallb] in *. fold (gen_size_elems e). apply andb_true_iff in Hng as [Hn1 Hn2]. inversion Hall as [|x l Hx Hl]; subst.
    rewrite (IH (pre ++ [r]) (S (length pre))); [|rewrite <- app_assoc; reflexivity|rewrite app_length; cbn; lia|exact Hl|exact Hn2].
    f_equal. rewrite flat_addable.
    assert (Hq : placed g (S n) 0 (ERef (post (EProj (length pre)) e)) r).
    { apply (proj_placed g n m e (pre ++ r :: rs') (length pre) r Hp). rewrite nth_error_app2 by lia. rewrite Nat.sub_diag. reflexivity. }
    exact (Hx Hn1 (S n) 0%nat _ g r Htr (or_intror eq_refl) Hq). }
  apply (H [] rs ts 0%nat eq_refl eq_refl Hr HF Hg).
Qed.

Theorem size_typed t : no_gen t = true -> forall n m e g r, rust_type bt t = Some r -> strict t n m -> placed g n m e r ->
  usable n (tc bt bd g (gen_size bt t e)) = size_fit n t.
Proof.
  induction t as [t Hl|t IH|k v IHk IHv|t IH|t IH|t IH|ts IH|t len IH|i args IH|t IH] using ty_ind'; intros Hng n m e g r Hr Hs Hp.
  - assert (Hm : is_coll t = false -> m = match n with O => 1%nat | _ => 0%nat end) by (intros Hc; destruct Hs as [Hs|Hs]; [congruence|exact Hs]).
    pose proof (placed_type _ _ _ _ _ Hp) as Ht. assert (Hnm : (1 <= n + m)%nat) by (destruct Hp as (? & _ & _ & _ & Hnm); exact Hnm).
    destruct t; try discriminate Hl; cbn [rust_type] in Hr; injection Hr as <-; cbn [gen_size size_fit tc].
    1-7: rewrite usable_guard; apply (scalar_arg g n m e _ Hp (Hm eq_refl)).
    1-3: rewrite Ht; cbn [obind]; rewrite usable_guard, coerce_rrefs by (reflexivity || exact Hnm); reflexivity.
    1-3: destruct bt; rewrite Ht; cbn [obind]; rewrite usable_guard, coerce_rrefs by (reflexivity || exact Hnm); reflexivity.
    rewrite (method_arg g n m e TrSize (TParam i) (RParam i) RUsize (ESizeM (TParam i)) (fun _ => eq_refl) Hp eq_refl eq_refl).
    unfold nominal_ok. cbn [rust_type impls].
    destruct (bd TrSize); cbn [guard]; [rewrite andb_true_r|rewrite andb_false_r; destruct n; reflexivity].
    destruct n as [|[|n]]; reflexivity.
  - cbn [rust_type] in Hr. destruct (rust_type bt t) as [r'|] eqn:Er; [|discriminate]. injection Hr as <-.
    pose proof (placed_type _ _ _ _ _ Hp) as Ht. assert (Hnm : (1 <= n + m)%nat) by (destruct Hp as (? & _ & _ & _ & Hnm); exact Hnm).
    cbn [gen_size size_fit tc]. rewrite Ht. cbn [obind]. rewrite coerce_rrefs by (reflexivity || exact Hnm). cbn [steps first as_slice obind].
    rewrite usable_guard. exact (IH Hng 0%nat 1%nat _ _ _ eq_refl (or_intror eq_refl) (placed_var g x_v r')).
  - cbn [rust_type] in Hr. cbn [no_gen] in Hng. apply andb_true_iff in Hng as [Hng1 Hng2].
    destruct (rust_type bt k) as [rk|] eqn:Ek; [|discriminate]. destruct (rust_type bt v) as [rv|] eqn:Ev; [|discriminate]. injection Hr as <-.
    pose proof (placed_type _ _ _ _ _ Hp) as Ht. assert (Hnm : (1 <= n + m)%nat) by (destruct Hp as (? & _ & _ & _ & Hnm); exact Hnm).
    cbn [gen_size size_fit tc]. rewrite Ht. cbn [obind]. rewrite coerce_rrefs by (reflexivity || exact Hnm). cbn [steps first as_map obind].
    rewrite usable_guard.
    rewrite <- (IHk Hng1 0%nat 1%nat _ _ _ eq_refl (or_intror eq_refl) (placed_var g x_k rk)), <- (IHv Hng2 0%nat 1%nat _ _ _ eq_refl (or_intror eq_refl) (placed_var g x_v rv)).
    reflexivity.
  - cbn [rust_type] in Hr. destruct (rust_type bt t) as [r'|] eqn:Er; [|discriminate]. injection Hr as <-.
    pose proof (placed_type _ _ _ _ _ Hp) as Ht. assert (Hnm : (1 <= n + m)%nat) by (destruct Hp as (? & _ & _ & _ & Hnm); exact Hnm).
    cbn [gen_size size_fit tc]. rewrite Ht. cbn [obind]. rewrite coerce_rrefs by (reflexivity || exact Hnm). cbn [steps first as_set obind].
    rewrite usable_guard. exact (IH Hng 0%nat 1%nat _ _ _ eq_refl (or_intror eq_refl) (placed_var g x_v r')).
  - cbn [rust_type] in Hr. destruct (rust_type bt t) as [r'|] eqn:Er; [|discriminate]. injection Hr as <-.
    cbn [gen_size size_fit tc]. rewrite (as_ref_arg g n m e r' Hp).
    destruct n as [|n]; [|reflexivity]. cbn [rrefs Nat.eqb andb].
    change (usable 0 (guard (has_type (tc bt bd ((x_v, RRef r') :: g) (gen_size bt t (EVar x_v))) RUsize) (Some RUsize)) = size_fit 0 t).
    rewrite usable_guard. exact (IH Hng 0%nat 1%nat _ _ _ eq_refl (or_intror eq_refl) (placed_var g x_v r')).
  - assert (Hcoll : is_coll t = true -> forall r', rust_type bt t = Some r' -> r = RNonZero r' ->
       usable n (tc bt bd g (gen_size bt t (post EGet e))) = size_fit n t).
    { intros Hc r' Er ->. exact (IH Hng n 1%nat _ g r' Er (or_introl Hc) (get_placed g n m e r' Hp)). }
    destruct t; cbn [rust_type] in Hr; try discriminate Hr; cbn [gen_size size_fit].
    1-4: injection Hr as <-; cbn [tc]; rewrite usable_guard; apply (get_arg g n m e _ Hp).
    all: match type of Hr with option_map _ ?o = _ => destruct o as [r'|] eqn:Er; [|discriminate Hr] | _ => idtac end; injection Hr as <-;
         first [exact (Hcoll eq_refl _ Er eq_refl) | exact (Hcoll eq_refl _ eq_refl eq_refl)].
  - cbn [rust_type] in Hr. cbn [no_gen] in Hng. destruct (all_opt (rust_type bt) ts) as [rs|] eqn:Er; [|discriminate]. injection Hr as <-.
    cbn [gen_size size_fit]. destruct (tuple_len_ok ts) eqn:Hlen; [|destruct n; reflexivity]. cbn [andb].
    change ((fix go (i : nat) (l : list ty) : list expr := match l with
         | [] => [] | t' :: l' => gen_size bt t' (ERef (post (EProj i) e)) :: go (S i) l' end) 0%nat ts) with (gen_size_elems e 0 ts).
    rewrite sum_type.
    + rewrite usable_guard. exact (elems_addable g e ts rs n m IH Hng Er Hp).
    + pose proof (flat_size (TTuple ts) e) as [_ H]. cbn [gen_size] in H. rewrite Hlen in H. exact H.
  - cbn [rust_type] in Hr. destruct (rust_type bt t) as [r'|] eqn:Er; [|discriminate]. injection Hr as <-.
    pose proof (placed_type _ _ _ _ _ Hp) as Ht. assert (Hnm : (1 <= n + m)%nat) by (destruct Hp as (? & _ & _ & _ & Hnm); exact Hnm).
    cbn [gen_size size_fit tc]. rewrite Ht. cbn [obind]. rewrite coerce_rrefs by (reflexivity || exact Hnm). cbn [steps first as_array obind].
    rewrite usable_guard. exact (IH Hng 0%nat 1%nat _ _ _ eq_refl (or_intror eq_refl) (placed_var g x_v r')).
  - cbn [rust_type] in Hr. destruct (all_opt (rust_type bt) args) as [rs|] eqn:Er; [|discriminate]. injection Hr as <-.
    cbn [gen_size size_fit]. assert (Ht : rust_type bt (TExt i args) = Some (RAdt i rs)) by (cbn [rust_type]; rewrite Er; reflexivity).
    rewrite (method_arg g n m e TrSize (TExt i args) (RAdt i rs) RUsize (ESizeM (TExt i args)) (fun _ => eq_refl) Hp Ht eq_refl).
    unfold nominal_ok. rewrite Ht.
    destruct (impls bd TrSize (RAdt i rs)); cbn [guard]; [rewrite andb_true_r|rewrite andb_false_r; destruct n; reflexivity].
    destruct n as [|[|n]]; reflexivity.
  - discriminate Hng.
Qed.

(** * Encoding *)
Fixpoint enc_fit (root : bool) (n : nat) (t : ty) {struct t} : bool :=
  match t with
  | TBool | TU8 | TI8 | TUInt _ | TSInt _ | TF32 | TF64 => (n <? 2)%nat
  | TString | TStringRef | TBoxString | TBytes | TBytesRef => true
  | TBoxBytes => match bt with BVecU8 => true | BBytes => false end
  | TVec t' | TArray t' _ | TSet t' => size_fit 0 t' && enc_fit false 0 t'
  | TMap k v => size_fit 0 k && size_fit 0 v && enc_fit false 0 k && enc_fit false 0 v
  | TOption t' => enc_fit false 0 t'
  | TNonZero t' =>
      match t' with
      | TU8 | TI8 | TUInt _ | TSInt _ => (n =? 0)%nat
      | TString | TStringRef | TBytes | TBytesRef | TVec _ | TMap _ _ | TSet _ => enc_fit false 0 t'
      | _ => false
      end
  | TTuple ts => tuple_len_ok ts && (negb root || forallb (size_fit (S n)) ts) && forallb (enc_fit false (S n)) ts
  | TExt _ _ | TParam _ => nominal_ok TrEncode t
  | TGen _ => false
  end.

Lemma some_guard {A} b (a : A) : is_some (guard b (Some a)) = b.
Proof. destruct b; reflexivity. Qed.

Definition gen_encode_elems (name : expr) := fix go (i : nat) (l : list ty) : list expr :=
  match l with
  | [] => []
  | t' :: l' => snd (gen_encode bt false t' (ERef (post (EProj i) name))) :: go (S i) l'
  end.
Definition writes (g : ctx) : Prop := find_var x_w g = Some RWriterT.
Lemma writes_var g x t : x <> x_w -> writes g -> writes ((x, t) :: g).
Proof. intros Hx H. unfold writes. rewrite find_var_neq; [exact H|]. intros E. apply Hx. symmetry. exact E. Qed.
Lemma writes_w g : writes ((x_w, RWriterT) :: g).
Proof. apply find_var_eq. Qed.
Lemma is_writer_ok g : writes g -> is_writer g (EVar x_w) = true.
Proof. unfold writes. intros H. cbn [is_writer]. rewrite H. reflexivity. Qed.
Lemma seq_one g e : has_type (tc bt bd g (ESeq [e])) RUnit = is_some (tc bt bd g e).
Proof. cbn [tc forallb]. rewrite andb_true_r. destruct (is_some (tc bt bd g e)); reflexivity. Qed.

Definition enc_goal (t : ty) : Prop := no_gen t = true -> forall n m e g r,
  rust_type bt t = Some r -> strict t n m -> placed g n m e r -> writes g ->
  is_some (tc bt bd g (snd (gen_encode bt false t e))) = enc_fit false n t.

Lemma elems_encode g e ts rs n m :
  Forall enc_goal ts -> forallb no_gen ts = true -> all_opt (rust_type bt) ts = Some rs -> placed g n m e (RTuple rs) -> writes g ->
  forallb (fun e => is_some (tc bt bd g e)) (gen_encode_elems e 0 ts) = forallb (enc_fit false (S n)) ts.
Proof.
  intros HF Hg Hr Hp Hw. apply all_opt_forall2 in Hr.
  assert (H : forall pre rs' ts' i, rs = pre ++ rs' -> length pre = i -> Forall2 (fun a b => rust_type bt a = Some b) ts' rs' ->
     Forall enc_goal ts' -> forallb no_gen ts' = true ->
     forallb (fun e => is_some (tc bt bd g e)) (gen_encode_elems e i ts') = forallb (enc_fit false (S n)) ts').
  { intros pre rs' ts' i Hpre Hi HF2. revert pre i Hpre Hi. induction HF2 as [|t r ts' rs' Htr HF2 IH]; intros pre i Hpre Hi Hall Hng; [reflexivity|].
    cbn [gen_encode_elems forallb] in *. fold (gen_encode_elems e). apply andb_true_iff in Hng as [Hn1 Hn2]. inversion Hall as [|x l Hx Hl]; subst.
    rewrite (IH (pre ++ [r]) (S (length pre))); [|rewrite <- app_assoc; reflexivity|rewrite app_length; cbn; lia|exact Hl|exact Hn2].
    f_equal.
    assert (Hq : placed g (S n) 0 (ERef (post (EProj (length pre)) e)) r).
    { apply (proj_placed g n m e (pre ++ r :: rs') (length pre) r Hp). rewrite nth_error_app2 by lia. rewrite Nat.sub_diag. reflexivity. }
    exact (Hx Hn1 (S n) 0%nat _ g r Htr (or_intror eq_refl) Hq Hw). }
  apply (H [] rs ts 0%nat eq_refl eq_refl Hr HF Hg).
Qed.

Lemma v_not_w : x_v <> x_w. Proof. discriminate. Qed.
Lemma k_not_w : x_k <> x_w. Proof. discriminate. Qed.

(** The body [|w, x| { encode; }] for an element. *)
Lemma enc_elem t r g x : enc_goal t -> no_gen t = true -> rust_type bt t = Some r -> x <> x_w ->
  has_type (tc bt bd ((x, RRef r) :: (x_w, RWriterT) :: g) (ESeq [snd (gen_encode bt false t (EVar x))])) RUnit = enc_fit false 0 t.
Proof.
  intros IH Hng Hr Hx. rewrite seq_one.
  apply (IH Hng 0%nat 1%nat _ _ r Hr (or_intror eq_refl)); [apply placed_var|]. apply writes_var; [exact Hx|apply writes_w].
Qed.
Lemma size_elem t r g x : no_gen t = true -> rust_type bt t = Some r ->
  has_type (tc bt bd ((x, RRef r) :: g) (gen_size bt t (EVar x))) RUsize = size_fit 0 t.
Proof. intros Hng Hr. exact (size_typed t Hng 0%nat 1%nat _ _ r Hr (or_intror eq_refl) (placed_var g x r)). Qed.

Lemma some_unit_guard b : is_some (guard b (Some RUnit)) = b.
Proof. destruct b; reflexivity. Qed.

Theorem enc_typed t : enc_goal t.
Proof.
  induction t as [t Hl|t IH|k v IHk IHv|t IH|t IH|t IH|ts IH|t len IH|i args IH|t IH] using ty_ind'; intros Hng n m e g r Hr Hs Hp Hw.
  all: pose proof (is_writer_ok g Hw) as Hwr.
  - assert (Hm : is_coll t = false -> m = match n with O => 1%nat | _ => 0%nat end) by (intros Hc; destruct Hs as [Hs|Hs]; [congruence|exact Hs]).
    pose proof (placed_type _ _ _ _ _ Hp) as Ht. assert (Hnm : (1 <= n + m)%nat) by (destruct Hp as (? & _ & _ & _ & Hnm); exact Hnm).
    destruct t; try discriminate Hl; cbn [rust_type] in Hr; injection Hr as <-; cbn [gen_encode snd enc_fit].
    1-7: cbn [tc]; rewrite some_guard, Hwr; apply (scalar_arg g n m e _ Hp (Hm eq_refl)).
    1-3: cbn [tc]; rewrite Ht; cbn [obind]; rewrite some_guard, Hwr, coerce_rrefs by (reflexivity || exact Hnm); reflexivity.
    1-3: cbn [tc]; destruct bt; rewrite Ht; cbn [obind]; rewrite some_guard, Hwr, coerce_rrefs by (reflexivity || exact Hnm); reflexivity.
    rewrite (method_arg g n m e TrEncode (TParam i) (RParam i) RUnit (fun e => EEncodeM (TParam i) e (EVar x_w)));
      [|intros e'; cbn [tc]; rewrite Hwr; reflexivity|exact Hp|reflexivity|reflexivity].
    rewrite some_guard. reflexivity.
  - cbn [rust_type] in Hr. destruct (rust_type bt t) as [r'|] eqn:Er; [|discriminate]. injection Hr as <-.
    pose proof (placed_type _ _ _ _ _ Hp) as Ht. assert (Hnm : (1 <= n + m)%nat) by (destruct Hp as (? & _ & _ & _ & Hnm); exact Hnm).
    cbn [gen_encode snd enc_fit]. remember (ESeq [snd (gen_encode bt false t (EVar x_v))]) as body eqn:Eb.
    cbn [tc]. rewrite Ht. cbn [obind]. rewrite coerce_rrefs by (reflexivity || exact Hnm). cbn [steps first as_slice obind].
    rewrite some_guard, Hwr. subst body. rewrite (size_elem t r' g x_v Hng Er), (enc_elem t r' g x_v IH Hng Er v_not_w). reflexivity.
  - cbn [rust_type] in Hr. cbn [no_gen] in Hng. apply andb_true_iff in Hng as [Hng1 Hng2].
    destruct (rust_type bt k) as [rk|] eqn:Ek; [|discriminate]. destruct (rust_type bt v) as [rv|] eqn:Ev; [|discriminate]. injection Hr as <-.
    pose proof (placed_type _ _ _ _ _ Hp) as Ht. assert (Hnm : (1 <= n + m)%nat) by (destruct Hp as (? & _ & _ & _ & Hnm); exact Hnm).
    cbn [gen_encode snd enc_fit]. remember (ESeq [snd (gen_encode bt false k (EVar x_k))]) as bk eqn:Ebk.
    remember (ESeq [snd (gen_encode bt false v (EVar x_v))]) as bv eqn:Ebv.
    cbn [tc]. rewrite Ht. cbn [obind]. rewrite coerce_rrefs by (reflexivity || exact Hnm). cbn [steps first as_map obind].
    rewrite some_guard, Hwr. subst bk bv.
    rewrite (size_elem k rk g x_k Hng1 Ek), (size_elem v rv g x_v Hng2 Ev), (enc_elem k rk g x_k IHk Hng1 Ek k_not_w), (enc_elem v rv g x_v IHv Hng2 Ev v_not_w).
    reflexivity.
  - cbn [rust_type] in Hr. destruct (rust_type bt t) as [r'|] eqn:Er; [|discriminate]. injection Hr as <-.
    pose proof (placed_type _ _ _ _ _ Hp) as Ht. assert (Hnm : (1 <= n + m)%nat) by (destruct Hp as (? & _ & _ & _ & Hnm); exact Hnm).
    cbn [gen_encode snd enc_fit]. remember (ESeq [snd (gen_encode bt false t (EVar x_v))]) as body eqn:Eb.
    cbn [tc]. rewrite Ht. cbn [obind]. rewrite coerce_rrefs by (reflexivity || exact Hnm). cbn [steps first as_set obind].
    rewrite some_guard, Hwr. subst body. rewrite (size_elem t r' g x_v Hng Er), (enc_elem t r' g x_v IH Hng Er v_not_w). reflexivity.
  - cbn [rust_type] in Hr. destruct (rust_type bt t) as [r'|] eqn:Er; [|discriminate]. injection Hr as <-.
    pose proof (placed_type _ _ _ _ _ Hp) as Ht. assert (Hnm : (1 <= n + m)%nat) by (destruct Hp as (? & _ & _ & _ & Hnm); exact Hnm).
    cbn [gen_encode snd enc_fit]. remember (ESeq [snd (gen_encode bt false t (EVar x_v))]) as body eqn:Eb.
    cbn [tc]. rewrite Ht. cbn [obind]. rewrite coerce_rrefs by (reflexivity || exact Hnm). cbn [steps first as_option obind].
    rewrite some_guard, Hwr. subst body. rewrite (enc_elem t r' g x_v IH Hng Er v_not_w). reflexivity.
  - assert (Hcoll : is_coll t = true -> forall r', rust_type bt t = Some r' -> r = RNonZero r' ->
       is_some (tc bt bd g (snd (gen_encode bt false t (post EGet e)))) = enc_fit false n t).
    { intros Hc r' Er ->. exact (IH Hng n 1%nat _ g r' Er (or_introl Hc) (get_placed g n m e r' Hp) Hw). }
    destruct t; cbn [rust_type] in Hr; try discriminate Hr; cbn [gen_encode enc_fit].
    1-4: injection Hr as <-; cbn [snd tc]; rewrite some_guard, Hwr; apply (get_arg g n m e _ Hp).
    all: match type of Hr with option_map _ ?o = _ => destruct o as [r'|] eqn:Er; [|discriminate Hr] | _ => idtac end; injection Hr as <-;
         first [exact (Hcoll eq_refl _ Er eq_refl) | exact (Hcoll eq_refl _ eq_refl eq_refl)].
  - cbn [rust_type] in Hr. cbn [no_gen] in Hng. destruct (all_opt (rust_type bt) ts) as [rs|] eqn:Er; [|discriminate]. injection Hr as <-.
    cbn [gen_encode snd enc_fit]. destruct (tuple_len_ok ts) eqn:Hlen; [|reflexivity]. cbn [andb negb orb].
    cbn zeta. fold (gen_encode_elems e).
    cbn [tc]. rewrite some_guard. exact (elems_encode g e ts rs n m IH Hng Er Hp Hw).
  - cbn [rust_type] in Hr. destruct (rust_type bt t) as [r'|] eqn:Er; [|discriminate]. injection Hr as <-.
    pose proof (placed_type _ _ _ _ _ Hp) as Ht. assert (Hnm : (1 <= n + m)%nat) by (destruct Hp as (? & _ & _ & _ & Hnm); exact Hnm).
    cbn [gen_encode snd enc_fit]. remember (ESeq [snd (gen_encode bt false t (EVar x_v))]) as body eqn:Eb.
    cbn [tc]. rewrite Ht. cbn [obind]. rewrite coerce_rrefs by (reflexivity || exact Hnm). cbn [steps first as_array obind].
    rewrite some_guard, Hwr. subst body. rewrite (size_elem t r' g x_v Hng Er), (enc_elem t r' g x_v IH Hng Er v_not_w). reflexivity.
  - cbn [rust_type] in Hr. destruct (all_opt (rust_type bt) args) as [rs|] eqn:Er; [|discriminate]. injection Hr as <-.
    cbn [gen_encode snd enc_fit]. assert (Ht : rust_type bt (TExt i args) = Some (RAdt i rs)) by (cbn [rust_type]; rewrite Er; reflexivity).
    rewrite (method_arg g n m e TrEncode (TExt i args) (RAdt i rs) RUnit (fun e => EEncodeM (TExt i args) e (EVar x_w)));
      [|intros e'; cbn [tc]; rewrite Hwr; reflexivity|exact Hp|exact Ht|reflexivity].
    rewrite some_guard. unfold nominal_ok. rewrite Ht. reflexivity.
  - discriminate Hng.
Qed.

(** A whole field. *)
Lemma enc_root t x r g : no_gen t = true -> rust_type bt t = Some r -> x <> x_w -> find_var x g = Some (RRef r) -> writes g ->
  is_some (tc bt bd g (snd (gen_encode bt true t (EVar x)))) = enc_fit true 0 t.
Proof.
  intros Hng Hr Hx Hf Hw. assert (Hp : placed g 0 1 (EVar x) r) by (exists (EVar x); split; [exact I|split; [reflexivity|split; [exact Hf|lia]]]).
  assert (Hp' : placed ((x_w, RWriterT) :: g) 0 1 (EVar x) r).
  { exists (EVar x). split; [exact I|split; [reflexivity|split; [|lia]]]. cbn [tc]. rewrite find_var_neq by exact Hx. exact Hf. }
  pose proof (enc_typed t Hng 0%nat 1%nat (EVar x) g r Hr (or_intror eq_refl) Hp Hw) as H.
  destruct t; try exact H. clear H. cbn [gen_encode snd enc_fit]. destruct (tuple_len_ok ts) eqn:Hlen; [|reflexivity].
  cbn [andb negb orb]. cbn zeta. fold (gen_encode_elems (EVar x)). fold (gen_size_elems (EVar x)).
  cbn [no_gen] in Hng. cbn [rust_type] in Hr. destruct (all_opt (rust_type bt) ts) as [rs|] eqn:Er; [|discriminate]. injection Hr as <-.
  assert (Hsum : (2 <= length (flat_map flat (gen_size_elems (EVar x) 0 ts)))%nat).
  { pose proof (flat_size (TTuple ts) (EVar x)) as [_ H]. cbn [gen_size] in H. rewrite Hlen in H. exact H. }
  remember (sum_of (gen_size_elems (EVar x) 0 ts)) as s eqn:Es.
  cbn [tc]. rewrite some_guard, (is_writer_ok g Hw). subst s. rewrite (sum_type g _ Hsum). cbn [andb].
  assert (HF : Forall (fun t => no_gen t = true -> forall n m e g r, rust_type bt t = Some r -> strict t n m -> placed g n m e r ->
            usable n (tc bt bd g (gen_size bt t e)) = size_fit n t) ts) by (apply Forall_forall; intros t _; apply size_typed).
  rewrite (elems_addable g (EVar x) ts rs 0 1 HF Hng Er Hp).
  assert (HE : Forall enc_goal ts) by (apply Forall_forall; intros t _; apply enc_typed).
  rewrite (elems_encode _ (EVar x) ts rs 0 1 HE Hng Er Hp' (writes_w g)).
  destruct (forallb (size_fit 1) ts), (forallb (enc_fit false 1) ts); reflexivity.
Qed.

(** * Decoding *)
Definition hash_ok (t : ty) : bool := nominal_ok TrHash t.
Definition debug_ok (t : ty) : bool := nominal_ok TrDebug t.
Fixpoint dec_fit (t : ty) {struct t} : bool :=
  match t with
  | TVec t' | TOption t' => dec_fit t'
  | TSet t' => hash_ok t' && dec_fit t'
  | TMap k v => hash_ok k && dec_fit k && dec_fit v
  | TNonZero t' =>
      match t' with
      | TU8 | TI8 | TUInt _ | TSInt _ | TString | TStringRef | TBytes | TBytesRef => true
      | TVec t'' => dec_fit t''
      | TSet t'' => hash_ok t'' && dec_fit t''
      | TMap k v => hash_ok k && dec_fit k && dec_fit v
      | _ => false
      end
  | TTuple ts => tuple_len_ok ts && forallb dec_fit ts
  | TArray t' _ => debug_ok t' && dec_fit t'
  | TExt _ _ | TParam _ => nominal_ok TrDecode t
  | TGen _ => false
  | _ => true
  end.
Definition reads (g : ctx) : Prop := find_var x_r g = Some RReaderT.
Lemma reads_r g : reads ((x_r, RReaderT) :: g).
Proof. apply find_var_eq. Qed.
Lemma is_reader_ok g : reads g -> is_reader g (EVar x_r) = true.
Proof. unfold reads. intros H. cbn [is_reader]. rewrite H. reflexivity. Qed.

Definition dtc_all (g : ctx) := fix go (es : list expr) (ts : list rty) {struct es} : bool :=
  match es, ts with
  | [], [] => true
  | e :: es', t :: ts' => dtc bt bd g e t && go es' ts'
  | _, _ => false
  end.

Theorem dec_typed t : no_gen t = true -> forall root g r, rust_type bt t = Some r -> reads g ->
  dtc bt bd g (gen_decode bt root t) r = dec_fit t.
Proof.
  induction t as [t Hl|t IH|k v IHk IHv|t IH|t IH|t IH|ts IH|t len IH|i args IH|t IH] using ty_ind'; intros Hng root g r Hr Hrd.
  all: pose proof (is_reader_ok g Hrd) as Hre.
  - destruct t; try discriminate Hl; cbn [rust_type] in Hr; injection Hr as <-; cbn [gen_decode dec_fit].
    all: try (cbn [dtc]; rewrite Hre; cbn; reflexivity).
    all: try (destruct bt; cbn [dtc]; rewrite Hre; reflexivity).
    all: try (cbn [dtc]; rewrite Hre; cbn [andb scalar_eqb]; apply scalar_eqb_eq || apply width_eqb_eq; reflexivity).
    cbn [dtc]. rewrite Hre. cbn [rust_type has_type rty_eqb andb]. rewrite Nat.eqb_refl. reflexivity.
  - cbn [rust_type] in Hr. destruct (rust_type bt t) as [r'|] eqn:Er; [|discriminate]. injection Hr as <-.
    cbn [gen_decode dec_fit dtc]. rewrite Hre. exact (IH Hng false _ r' eq_refl (reads_r g)).
  - cbn [rust_type] in Hr. cbn [no_gen] in Hng. apply andb_true_iff in Hng as [Hng1 Hng2].
    destruct (rust_type bt k) as [rk|] eqn:Ek; [|discriminate]. destruct (rust_type bt v) as [rv|] eqn:Ev; [|discriminate]. injection Hr as <-.
    cbn [gen_decode dec_fit dtc]. rewrite Hre, (IHk Hng1 false _ rk eq_refl (reads_r g)), (IHv Hng2 false _ rv eq_refl (reads_r g)).
    unfold hash_ok, nominal_ok. rewrite Ek. reflexivity.
  - cbn [rust_type] in Hr. destruct (rust_type bt t) as [r'|] eqn:Er; [|discriminate]. injection Hr as <-.
    cbn [gen_decode dec_fit dtc]. rewrite Hre, (IH Hng false _ r' eq_refl (reads_r g)). unfold hash_ok, nominal_ok. rewrite Er. reflexivity.
  - cbn [rust_type] in Hr. destruct (rust_type bt t) as [r'|] eqn:Er; [|discriminate]. injection Hr as <-.
    cbn [gen_decode dec_fit dtc]. rewrite Hre. exact (IH Hng false _ r' eq_refl (reads_r g)).
  - destruct t; cbn [rust_type] in Hr; try discriminate Hr; cbn [gen_decode dec_fit].
    1-4: injection Hr as <-; cbn [dtc]; rewrite Hre; cbn [andb]; apply scalar_eqb_eq; reflexivity.
    1,2: injection Hr as <-; cbn [dtc]; rewrite Hre; reflexivity.
    1,2: injection Hr as <-; destruct bt; cbn [dtc]; rewrite Hre; reflexivity.
    + specialize (IH Hng false g). cbn [rust_type gen_decode dec_fit dtc] in IH. destruct (rust_type bt t) as [r'|] eqn:Er; [|discriminate Hr].
      cbn [option_map] in *. injection Hr as <-. specialize (IH _ eq_refl Hrd). cbn [dtc] in IH |- *. exact IH.
    + specialize (IH Hng false g). cbn [rust_type gen_decode dec_fit] in IH.
      destruct (rust_type bt t1) as [rk|] eqn:Ek; [|discriminate Hr]. destruct (rust_type bt t2) as [rv|] eqn:Ev; [|discriminate Hr].
      cbn [option_map obind] in *. injection Hr as <-. specialize (IH _ eq_refl Hrd). cbn [dtc] in IH |- *. exact IH.
    + specialize (IH Hng false g). cbn [rust_type gen_decode dec_fit dtc] in IH. destruct (rust_type bt t) as [r'|] eqn:Er; [|discriminate Hr].
      cbn [option_map] in *. injection Hr as <-. specialize (IH _ eq_refl Hrd). cbn [dtc] in IH |- *. exact IH.
  - cbn [rust_type] in Hr. cbn [no_gen] in Hng. destruct (all_opt (rust_type bt) ts) as [rs|] eqn:Er; [|discriminate]. injection Hr as <-.
    cbn [gen_decode dec_fit]. destruct (tuple_len_ok ts) eqn:Hlen; [|reflexivity]. cbn [andb].
    assert (Hrest : dtc_all g (map (gen_decode bt false) ts) rs = forallb dec_fit ts).
    { apply all_opt_forall2 in Er. clear Hlen. induction Er as [|t r ts rs Htr Er IHl]; [reflexivity|].
      inversion IH as [|x l Hx Hl]; subst. cbn [forallb] in Hng. apply andb_true_iff in Hng as [Hn1 Hn2].
      cbn [map dtc_all forallb]. rewrite (Hx Hn1 false g r Htr Hrd). f_equal. exact (IHl Hl Hn2). }
    destruct root; cbn [dtc]; [rewrite Hre; cbn [andb scalar_eqb width_eqb]|]; exact Hrest.
  - cbn [rust_type] in Hr. destruct (rust_type bt t) as [r'|] eqn:Er; [|discriminate]. injection Hr as <-.
    cbn [gen_decode dec_fit dtc]. rewrite Hre, Nat.eqb_refl, (IH Hng false _ r' eq_refl (reads_r g)).
    unfold debug_ok, nominal_ok. rewrite Er. reflexivity.
  - cbn [rust_type] in Hr. destruct (all_opt (rust_type bt) args) as [rs|] eqn:Er; [|discriminate]. injection Hr as <-.
    cbn [gen_decode dec_fit dtc]. assert (Ht : rust_type bt (TExt i args) = Some (RAdt i rs)) by (cbn [rust_type]; rewrite Er; reflexivity).
    unfold nominal_ok. rewrite Hre, Ht. cbn [has_type]. rewrite rty_eqb_refl. reflexivity.
  - discriminate Hng.
Qed.
End Fit.
