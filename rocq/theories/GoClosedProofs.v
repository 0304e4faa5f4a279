(** Proofs for C84. *)
From Verif Require Import Base Syntax Parser Printer Compiler GoNames GoFile GoClosed LowerProofs.
Require Coq.Strings.String.
Import Coq.Strings.String.StringSyntax.
Local Open Scope string_scope.
Local Open Scope list_scope.
Local Open Scope N_scope.

(** * Lists *)
Lemma collect_forall2 {A B} (f : A -> option B) l : forall r, collect (map f l) = Some r -> Forall2 (fun x y => f x = Some y) l r.
Proof.
  induction l as [|x l IH]; intros r H; cbn [map collect] in H; [assert (r = []) by congruence; subst; constructor|].
  destruct (f x) as [y|] eqn:E; [|discriminate]. destruct (collect (map f l)) as [r'|] eqn:E'; [|discriminate]. cbn [option_map] in H.
  assert (r = y :: r') by congruence. subst. constructor; [exact E|apply IH; reflexivity].
Qed.
Lemma forall2_iff {A B} (R : A -> B -> Prop) (P : A -> Prop) (Q : B -> Prop) l r :
  Forall2 R l r -> (forall x y, In x l -> R x y -> (Q y <-> P x)) -> (Forall Q r <-> Forall P l).
Proof.
  intros H. induction H as [|x y l r Hxy _ IH]; intros HQ; [split; constructor|].
  rewrite !Forall_cons_iff, (HQ x y (or_introl eq_refl) Hxy), IH; [reflexivity|]. intros a b Ha. apply HQ. right. exact Ha.
Qed.
Lemma forall2_forall {A B} (R : A -> B -> Prop) (Q : B -> Prop) l r :
  Forall2 R l r -> (forall x y, In x l -> R x y -> Q y) -> Forall Q r.
Proof. intros H. induction H as [|x y l r Hxy _ IH]; intros HQ; constructor; [eapply HQ; [left; reflexivity|exact Hxy]|]. apply IH. intros a b Ha. apply HQ. right. exact Ha. Qed.
Lemma forall2_in {A B} (R : A -> B -> Prop) l r y : Forall2 R l r -> In y r -> exists x, In x l /\ R x y.
Proof. intros H. induction H as [|x z l r Hxy _ IH]; intros Hi; [destruct Hi|]. destruct Hi as [<-|Hi]; [exists x; split; [left; reflexivity|exact Hxy]|]. destruct (IH Hi) as (a & Ha & Hr). exists a. split; [right; exact Ha|exact Hr]. Qed.
Lemma forall2_in_l {A B} (R : A -> B -> Prop) l r x : Forall2 R l r -> In x l -> exists y, In y r /\ R x y.
Proof. intros H. induction H as [|a z l r Hxy _ IH]; intros Hi; [destruct Hi|]. destruct Hi as [<-|Hi]; [exists z; split; [left; reflexivity|exact Hxy]|]. destruct (IH Hi) as (b & Ha & Hr). exists b. split; [right; exact Ha|exact Hr]. Qed.
Lemma forall2_len {A B} (R : A -> B -> Prop) l r : Forall2 R l r -> length l = length r.
Proof. intros H. induction H; cbn [length]; congruence. Qed.
Lemma some_inj {A} (x y : A) : Some x = Some y -> x = y.
Proof. congruence. Qed.
Lemma omap_some {A B} (f : A -> B) o y : option_map f o = Some y -> exists x, o = Some x /\ y = f x.
Proof. destruct o as [x|]; cbn; intros H; [exists x; split; congruence|discriminate]. Qed.

(** * The predicates as lists *)
Section Unfold.
Variables (imports : list str) (types : list (str * nat)) (values tps : list str).
Notation ty_ok := (ty_ok imports types tps).
Notation x_ok := (x_ok imports types values tps).
Notation block_ok := (block_ok imports types values tps).
Lemma ty_named vs n l : ty_ok vs (GNamed n l) <-> ~ In n vs /\ resolves types tps n (length l) /\ Forall (ty_ok vs) l.
Proof. cbn [GoClosed.ty_ok]. assert (H : forall l, (fix all (l : list gty) : Prop := match l with [] => True | t :: l' => ty_ok vs t /\ all l' end) l <-> Forall (ty_ok vs) l).
  { clear. induction l as [|t l IH]; [split; constructor|]. rewrite Forall_cons_iff, <- IH. reflexivity. } rewrite H. reflexivity. Qed.
Lemma ty_from vs p n l : ty_ok vs (GFrom p n l) <-> package_ok imports vs p /\ Forall (ty_ok vs) l.
Proof. cbn [GoClosed.ty_ok]. assert (H : forall l, (fix all (l : list gty) : Prop := match l with [] => True | t :: l' => ty_ok vs t /\ all l' end) l <-> Forall (ty_ok vs) l).
  { clear. induction l as [|t l IH]; [split; constructor|]. rewrite Forall_cons_iff, <- IH. reflexivity. } rewrite H. unfold package_ok. tauto. Qed.
Lemma x_all vs l : (fix all (l : list gx) : Prop := match l with [] => True | e :: l' => x_ok vs e /\ all l' end) l <-> Forall (x_ok vs) l.
Proof. induction l as [|t l IH]; [split; constructor|]. rewrite Forall_cons_iff, <- IH. reflexivity. Qed.
Lemma x_block : forall l vs, (fix block (vs : list str) (l : list gx) : Prop :=
    match l with [] => True | s :: l' => x_ok vs s /\ block (binds s ++ vs) l' end) vs l <-> block_ok vs l.
Proof. induction l as [|t l IH]; intros vs; [reflexivity|]. cbn [GoClosed.block_ok]. rewrite <- IH. reflexivity. Qed.
Lemma x_call vs f l : x_ok vs (XCall f l) <-> x_ok vs f /\ Forall (x_ok vs) l.
Proof. cbn [GoClosed.x_ok]. rewrite x_all. reflexivity. Qed.
Lemma x_callnl vs f l : x_ok vs (XCallNl f l) <-> x_ok vs f /\ Forall (x_ok vs) l.
Proof. cbn [GoClosed.x_ok]. rewrite x_all. reflexivity. Qed.
Lemma x_calllines vs f a l : x_ok vs (XCallLines f a l) <-> x_ok vs f /\ Forall (x_ok vs) a /\ Forall (x_ok vs) l.
Proof. cbn [GoClosed.x_ok]. rewrite !x_all. reflexivity. Qed.
Lemma x_fun vs sp ps rs b : x_ok vs (XFun sp ps rs b) <->
  Forall (ty_ok vs) (map snd ps) /\ Forall (ty_ok vs) rs /\ block_ok (map fst ps ++ vs) b.
Proof. cbn [GoClosed.x_ok]. rewrite x_block. reflexivity. Qed.
Lemma x_lit vs t fs : x_ok vs (XLit t fs) <-> ty_ok vs t /\ Forall (fun f => x_ok vs (snd f)) fs.
Proof.
  cbn [GoClosed.x_ok]. assert (H : (fix fields (l : list (str * gx)) : Prop := match l with [] => True | (_, e) :: l' => x_ok vs e /\ fields l' end) fs <-> Forall (fun f => x_ok vs (snd f)) fs).
  { clear. induction fs as [|[k e] l IH]; [split; constructor|]. rewrite Forall_cons_iff, <- IH. reflexivity. } rewrite H. reflexivity.
Qed.
Lemma y_ret vs l : x_ok vs (YRet l) <-> Forall (x_ok vs) l.
Proof. cbn [GoClosed.x_ok]. apply x_all. Qed.
Lemma y_if vs c b : x_ok vs (YIf c b) <-> x_ok vs c /\ block_ok vs b.
Proof. cbn [GoClosed.x_ok]. rewrite x_block. reflexivity. Qed.
Lemma y_for vs c b : x_ok vs (YFor c b) <-> x_ok vs c /\ block_ok vs b.
Proof. cbn [GoClosed.x_ok]. rewrite x_block. reflexivity. Qed.
Lemma y_switch vs e cs : x_ok vs (YSwitch e cs) <-> x_ok vs e /\ Forall (fun c => x_ok vs (fst c) /\ block_ok vs (snd c)) cs.
Proof.
  cbn [GoClosed.x_ok]. match goal with |- _ /\ ?A <-> _ => assert (H : A <-> Forall (fun c => x_ok vs (fst c) /\ block_ok vs (snd c)) cs) end.
  { clear. induction cs as [|[c b] l IH]; [split; constructor|]. rewrite Forall_cons_iff, <- IH, x_block. cbn [fst snd]. tauto. } rewrite H. reflexivity.
Qed.
Lemma block_app : forall a vs b, block_ok vs (a ++ b) <-> block_ok vs a /\ block_ok (flat_map binds (rev a) ++ vs) b.
Proof.
  induction a as [|s a IH]; intros vs b; cbn [app rev flat_map GoClosed.block_ok]; [tauto|]. rewrite IH, flat_map_app. cbn [flat_map]. rewrite app_nil_r, <- app_assoc. tauto.
Qed.
End Unfold.

Lemma fits_all types tps l :
  (fix all (l : list sty) : Prop := match l with [] => True | t :: l' => type_fits types tps t /\ all l' end) l <-> Forall (type_fits types tps) l.
Proof. induction l as [|t l IH]; [split; constructor|]. rewrite Forall_cons_iff, <- IH. reflexivity. Qed.
Lemma asks_some p l :
  (fix some (l : list sty) : Prop := match l with [] => False | t :: l' => asks p t \/ some l' end) l <-> Exists (asks p) l.
Proof. induction l as [|t l IH]; [split; [intros []|intros H; inversion H]|]. rewrite Exists_cons, <- IH. reflexivity. Qed.

(** * Names *)
Definition starts_low (x : str) : bool := match x with c :: _ => is_low c | [] => false end.
Lemma to_up_not_low c : is_low (to_up c) = false.
Proof. unfold to_up, is_low. destruct ((97 <=? c) && (c <=? 122)) eqn:E; lia. Qed.
Lemma cap_not_low w : starts_low (capitalize w) = false.
Proof. destruct w as [|c w]; [reflexivity|]. apply to_up_not_low. Qed.
Lemma camel_not_low n : starts_low (camel n) = false.
Proof.
  unfold camel. induction (heck_words n) as [|w l IH]; [reflexivity|]. cbn [map concat]. pose proof (cap_not_low w) as H.
  destruct (capitalize w) as [|c r]; [exact IH|exact H].
Qed.
Lemma camel_app_not_low n s : starts_low s = false -> starts_low (camel n ++ s) = false.
Proof. intros H. pose proof (camel_not_low n) as Hc. destruct (camel n) as [|c r]; [exact H|exact Hc]. Qed.
Lemma variant_not_low n v : starts_low (variant_name n v) = false.
Proof. apply camel_app_not_low. reflexivity. Qed.
(** Variables the generated methods declare: none is a type, an import or a capitalised name. *)
Definition localb (x : str) : bool :=
  starts_low x && negb (existsb (str_eqb x) (tx "mabo" :: tx "buf" :: predeclared_types)).
Definition local (x : str) : Prop := localb x = true.
Lemma local_low x : local x -> starts_low x = true.
Proof. unfold local, localb. intros H. apply Bool.andb_true_iff in H. tauto. Qed.
Lemma local_not x y : local x -> existsb (str_eqb y) (tx "mabo" :: tx "buf" :: predeclared_types) = true -> x <> y.
Proof. unfold local, localb. intros H1 H2 ->. rewrite H2, Bool.andb_false_r in H1. discriminate. Qed.
Lemma locals_not vs y : Forall local vs -> existsb (str_eqb y) (tx "mabo" :: tx "buf" :: predeclared_types) = true -> ~ In y vs.
Proof. intros H Hy Hi. rewrite Forall_forall in H. exact (local_not _ _ (H _ Hi) Hy eq_refl). Qed.
Lemma locals_high vs y : Forall local vs -> starts_low y = false -> ~ In y vs.
Proof. intros H Hy Hi. rewrite Forall_forall in H. pose proof (local_low _ (H _ Hi)). congruence. Qed.
Lemma found_local f : local (found_name f).
Proof. reflexivity. Qed.
Lemma value_local i : local (tx "value" ++ dec_str i).
Proof. reflexivity. Qed.

(** * Types *)
Section Types.
Variables (types : list (str * nat)) (values tps : list str).
Hypothesis types_high : Forall (fun p => starts_low (fst p) = false) types.
Hypothesis values_high : Forall (fun x => starts_low x = false) values.
Let imports : list str := [tx "mabo"; tx "buf"].
Notation ty_ok := (ty_ok imports types tps).
Notation x_ok := (x_ok imports types values tps).
Notation block_ok := (block_ok imports types values tps).

Lemma not_type n : starts_low n = true -> ~ In n (map fst types).
Proof. intros Hn Hi. apply in_map_iff in Hi as (p & <- & Hp). rewrite Forall_forall in types_high. rewrite (types_high _ Hp) in Hn. discriminate. Qed.
Lemma not_value n : starts_low n = true -> ~ In n values.
Proof. intros Hn Hi. rewrite Forall_forall in values_high. rewrite (values_high _ Hi) in Hn. discriminate. Qed.
Lemma in_strs x l : existsb (str_eqb x) l = true -> In x l.
Proof. intros H. apply existsb_exists in H as (y & Hy & E). apply str_eqb_eq in E as ->. exact Hy. Qed.
Lemma base_ok vs n : Forall local vs -> existsb (str_eqb n) predeclared_types = true -> starts_low n = true -> ty_ok vs (GNamed n []).
Proof.
  intros Hv Hn Hl. apply ty_named. split; [|split; [|constructor]].
  - apply locals_not; [exact Hv|]. cbn [existsb]. rewrite Hn. rewrite !Bool.orb_true_r. reflexivity.
  - unfold resolves. destruct (in_dec (list_eq_dec N.eq_dec) n tps) as [Hi|Hi]; [left; auto|]. right. split; [exact Hi|]. right.
    split; [apply not_type; exact Hl|]. split; [apply in_strs; exact Hn|reflexivity].
Qed.
Lemma bytes_ok vs : Forall local vs -> ty_ok vs gbytes.
Proof. intros H. cbn [GoClosed.ty_ok gbytes]. apply (base_ok vs (tx "byte") H); reflexivity. Qed.
Lemma gname_ok vs s : Forall local vs -> existsb (str_eqb (tx s)) predeclared_types = true -> starts_low (tx s) = true -> ty_ok vs (gname s).
Proof. intros. apply base_ok; assumption. Qed.
Lemma pkg_ok vs p : Forall local vs -> p = tx "mabo" \/ p = tx "buf" -> package_ok imports vs p.
Proof. intros Hv [-> | ->]; (split; [apply locals_not; [exact Hv|reflexivity]|cbn; auto]). Qed.
Lemma pkg_inv vs p : package_ok imports vs p -> p = tx "mabo" \/ p = tx "buf".
Proof. intros [_ H]. cbn [In imports] in H. destruct H as [H|[H|[]]]; auto. Qed.

Lemma prim_fits p vs : Forall local vs -> (ty_ok vs (go_prim p) <-> p <> PrU128 /\ p <> PrI128).
Proof.
  intros Hv. destruct p; cbn [go_prim]; try (split; [intros _; split; discriminate|intros _; apply gname_ok; [exact Hv|reflexivity|reflexivity]]);
    try (split; [intros _; split; discriminate|intros _; apply bytes_ok, Hv]).
  - split; [|tauto]. intros H. change (ty_ok vs (GFrom (tx "big") (tx "Int") [])) in H. apply ty_from in H as [H _]. apply pkg_inv in H as [H|H]; discriminate.
  - split; [|tauto]. intros H. change (ty_ok vs (GFrom (tx "big") (tx "Int") [])) in H. apply ty_from in H as [H _]. apply pkg_inv in H as [H|H]; discriminate.
Qed.
Definition fits_goal (t : sty) : Prop := forall g vs, go_type t = Some g -> Forall local vs -> (ty_ok vs g <-> type_fits types tps t).
Lemma type_ok t : fits_goal t.
Proof.
  induction t as [p|t IH|k v IHk IHv|t IH|t IH|t IH|ts IH|t n IH|path name ts IH] using sty_ind2; intros g vs Hg Hv; cbn [go_type] in Hg.
  - apply some_inj in Hg as <-. apply prim_fits, Hv.
  - apply omap_some in Hg as (g' & Hg & ->). apply (IH g' vs Hg Hv).
  - destruct (go_type k) as [gk|] eqn:Ek; [|discriminate]. destruct (go_type v) as [gv|] eqn:Ev; [|discriminate]. apply some_inj in Hg as <-.
    cbn [GoClosed.ty_ok type_fits]. rewrite (IHk gk vs Ek Hv), (IHv gv vs Ev Hv). reflexivity.
  - apply omap_some in Hg as (g' & Hg & ->). cbn [GoClosed.ty_ok type_fits]. rewrite (IH g' vs Hg Hv). tauto.
  - apply omap_some in Hg as (g' & Hg & ->). apply (IH g' vs Hg Hv).
  - cbn [type_fits]. unfold mabo_nz in Hg. pose proof (pkg_ok vs (tx "mabo") Hv (or_introl eq_refl)) as Hp. destruct t as [p|t|k v|t|t|t|ts|t n|path name ts]; try discriminate Hg.
    + apply omap_some in Hg as (n & _ & ->). rewrite ty_from. split; [tauto|]. intros _. split; [exact Hp|constructor].
    + apply omap_some in Hg as (g' & Hg & ->). rewrite ty_from. rewrite <- (IH (GSlice g') vs); [|cbn [go_type]; rewrite Hg; reflexivity|exact Hv].
      cbn [GoClosed.ty_ok]. rewrite Forall_cons_iff. split; [tauto|]. intros H. repeat split; [apply Hp|apply Hp|exact H|constructor].
    + destruct (go_type k) as [gk|] eqn:Ek; [|discriminate]. destruct (go_type v) as [gv|] eqn:Ev; [|discriminate]. apply some_inj in Hg as <-.
      rewrite ty_from. rewrite <- (IH (GMap gk gv) vs); [|cbn [go_type]; rewrite Ek, Ev; reflexivity|exact Hv].
      cbn [GoClosed.ty_ok]. rewrite !Forall_cons_iff. split; [tauto|]. intros H. repeat split; [apply Hp|apply Hp|apply H|apply H|constructor].
    + apply omap_some in Hg as (g' & Hg & ->). rewrite ty_from. rewrite <- (IH (GMap g' GEmpty) vs); [|cbn [go_type]; rewrite Hg; reflexivity|exact Hv].
      cbn [GoClosed.ty_ok]. rewrite Forall_cons_iff. split; [tauto|]. intros H. repeat split; [apply Hp|apply Hp|apply H|constructor].
  - apply omap_some in Hg as (l & Hl & ->). apply collect_forall2 in Hl. rewrite ty_from. cbn [type_fits]. rewrite fits_all.
    rewrite (forall2_iff _ (type_fits types tps) (ty_ok vs) ts l Hl); [|intros x y Hx E; apply (IH x Hx y vs E Hv)].
    split; [tauto|]. intros H. split; [apply pkg_ok; auto|exact H].
  - apply omap_some in Hg as (g' & Hg & ->). apply (IH g' vs Hg Hv).
  - apply omap_some in Hg as (l & Hl & ->). apply collect_forall2 in Hl. cbn [type_fits]. rewrite fits_all.
    assert (HF : Forall (ty_ok vs) l <-> Forall (type_fits types tps) ts) by (apply (forall2_iff _ _ _ ts l Hl); intros x y Hx E; apply (IH x Hx y vs E Hv)).
    pose proof (forall2_len _ _ _ Hl) as Hlen. destruct (rev path) as [|p r].
    + rewrite ty_named, HF, <- Hlen. split; [tauto|]. intros [H1 H2]. split; [apply locals_high; [exact Hv|apply camel_not_low]|tauto].
    + rewrite ty_from, HF. split; [intros [H1 H2]; split; [exact (pkg_inv _ _ H1)|exact H2]|]. intros [H1 H2]. split; [apply pkg_ok; assumption|exact H2].
Qed.

(** * Code *)
Lemma var_ok vs x : In x vs -> x_ok vs (XId x).
Proof. intros H. left. exact H. Qed.
Lemma nil_ok vs : x_ok vs (xid "nil").
Proof. right. right. cbn. auto. Qed.
Lemma buf_fn vs n l : Forall local vs -> (x_ok vs (xbuf n l) <-> Forall (ty_ok vs) l).
Proof. intros Hv. unfold xbuf. cbn [GoClosed.x_ok]. split; [tauto|]. intros H. split; [apply pkg_ok; auto|exact H]. Qed.
Lemma locals_cons x vs : localb x = true -> Forall local vs -> Forall local (x :: vs).
Proof. intros H1 H2. constructor; assumption. Qed.

(** An expression that stays right when variables are added: those the generator reads a value from. *)
Definition stable (vs : list str) (e : gx) : Prop := forall vs', incl vs vs' -> x_ok vs' e.
Lemma stable_ok vs e : stable vs e -> x_ok vs e.
Proof. intros H. apply H, incl_refl. Qed.
Lemma stable_more vs vs' e : incl vs vs' -> stable vs e -> stable vs' e.
Proof. intros Hi H u Hu. apply H. exact (incl_tran Hi Hu). Qed.
Lemma stable_var vs x : In x vs -> stable vs (XId x).
Proof. intros H u Hu. left. apply Hu, H. Qed.
Lemma stable_sel vs e m : stable vs e -> stable vs (XSel e m).
Proof. intros H u Hu. exact (H u Hu). Qed.
Lemma stable_get vs e : stable vs e -> stable vs (xget e).
Proof. intros H u Hu. apply x_call. split; [exact (H u Hu)|constructor]. Qed.

Definition enc_goal (t : sty) : Prop := forall vs name e, enc_x t name = Some e -> type_fits types tps t -> Forall local vs -> In (tx "w") vs ->
  stable vs name -> x_ok vs e.
Lemma efun_ok vs x t g e : localb (tx x) = true -> go_type t = Some g -> type_fits types tps t -> Forall local vs ->
  x_ok (tx "w" :: tx x :: vs) e -> x_ok vs (efun x g e).
Proof.
  intros Hx Hg Ht Hv He. unfold efun. apply x_fun. cbn [map snd fst app GoClosed.block_ok]. split; [|split; [|split; [|exact I]]].
  - constructor; [apply bytes_ok, Hv|constructor; [|constructor]]. apply (type_ok t g vs Hg Hv), Ht.
  - constructor; [apply bytes_ok, Hv|constructor].
  - apply y_ret. constructor; [exact He|constructor].
Qed.
Lemma enc_one fn t vs name e : enc_goal t -> 
  (match go_type t, enc_x t (xid "v") with Some g, Some e => Some (XCall (xbuf fn [g]) [xid "w"; name; efun "v" g e]) | _, _ => None end) = Some e ->
  type_fits types tps t -> Forall local vs -> In (tx "w") vs -> stable vs name -> x_ok vs e.
Proof.
  intros IH H Ht Hv Hw Hn. destruct (go_type t) as [g|] eqn:Eg; [|discriminate]. destruct (enc_x t (xid "v")) as [e'|] eqn:Ee; [|discriminate].
  apply some_inj in H as <-. apply x_call. split; [apply buf_fn; [exact Hv|]; constructor; [apply (type_ok t g vs Eg Hv), Ht|constructor]|].
  constructor; [apply var_ok, Hw|]. constructor; [apply stable_ok, Hn|]. constructor; [|constructor].
  apply (efun_ok vs "v" t); [reflexivity|exact Eg|exact Ht|exact Hv|]. apply (IH _ (xid "v")); [exact Ee|exact Ht| |left; reflexivity|apply stable_var; right; left; reflexivity].
  repeat apply locals_cons; try reflexivity. exact Hv.
Qed.
Lemma enc_ok t : enc_goal t.
Proof.
  induction t as [p|t IH|k v IHk IHv|t IH|t IH|t IH|ts IH|t n IH|path name' ts IH] using sty_ind2; intros vs name e He Ht Hv Hw Hn; cbn [enc_x] in He; cbn [type_fits] in Ht.
  - apply some_inj in He as <-. apply x_call. split; [apply buf_fn; [exact Hv|constructor]|]. constructor; [apply var_ok, Hw|constructor; [apply stable_ok, Hn|constructor]].
  - exact (enc_one _ t vs name e IH He Ht Hv Hw Hn).
  - destruct (go_type k) as [gk|] eqn:Ek; [|discriminate]. destruct (go_type v) as [gv|] eqn:Ev; [|discriminate].
    destruct (enc_x k (xid "k")) as [ek|] eqn:Eek; [|discriminate]. destruct (enc_x v (xid "v")) as [ev|] eqn:Eev; [|discriminate]. apply some_inj in He as <-. destruct Ht as [Hk Hvv].
    apply x_calllines. split; [apply buf_fn; [exact Hv|]; constructor; [apply (type_ok k gk vs Ek Hv), Hk|constructor; [apply (type_ok v gv vs Ev Hv), Hvv|constructor]]|].
    split; [constructor; [apply var_ok, Hw|constructor; [apply stable_ok, Hn|constructor]]|]. constructor; [|constructor; [|constructor]].
    + apply (efun_ok vs "k" k); [reflexivity|exact Ek|exact Hk|exact Hv|]. apply (IHk _ (xid "k")); [exact Eek|exact Hk| |left; reflexivity|apply stable_var; right; left; reflexivity].
      repeat apply locals_cons; try reflexivity. exact Hv.
    + apply (efun_ok vs "v" v); [reflexivity|exact Ev|exact Hvv|exact Hv|]. apply (IHv _ (xid "v")); [exact Eev|exact Hvv| |left; reflexivity|apply stable_var; right; left; reflexivity].
      repeat apply locals_cons; try reflexivity. exact Hv.
  - exact (enc_one _ t vs name e IH He Ht Hv Hw Hn).
  - exact (enc_one _ t vs name e IH He Ht Hv Hw Hn).
  - pose proof (stable_get _ _ Hn) as Hg.
    destruct t as [p|t|k v|t|t|t|ts|t n|path name' ts]; try discriminate He.
    + destruct (nz_encodable p); [|discriminate]. apply some_inj in He as <-. apply x_call. split; [apply buf_fn; [exact Hv|constructor]|]. constructor; [apply var_ok, Hw|constructor; [apply stable_ok, Hg|constructor]].
    + exact (IH vs _ e He Ht Hv Hw Hg).
    + exact (IH vs _ e He Ht Hv Hw Hg).
    + exact (IH vs _ e He Ht Hv Hw Hg).
  - rewrite fits_all in Ht. destruct ((2 <=? length ts)%nat && (length ts <=? 12)%nat); [|discriminate]. apply omap_some in He as (l & Hl & ->). rewrite x_call. split.
    + apply x_fun. cbn [map snd fst app]. split; [constructor; [apply bytes_ok, Hv|constructor]|]. split; [constructor; [apply bytes_ok, Hv|constructor]|].
      pose proof (stable_more vs (tx "w" :: vs) name (incl_tl _ (incl_refl _)) Hn) as Hnw. revert l Hl. generalize 0 as i. clear Hn. induction ts as [|t ts IHts]; intros i l Hl; cbn [collect] in Hl.
      * apply some_inj in Hl as <-. cbn [app GoClosed.block_ok]. split; [|exact I]. apply y_ret. constructor; [apply var_ok; left; reflexivity|constructor].
      * destruct (enc_x t (XSel name (tx "F" ++ dec_str i))) as [e|] eqn:Ee; [|discriminate]. cbn [option_map] in Hl. apply omap_some in Hl as (l' & Hl & ->).
        apply Forall_cons_iff in Ht as [Ht1 Ht2]. cbn [app GoClosed.block_ok binds]. split.
        -- cbn [GoClosed.x_ok]. split; [left; left; reflexivity|]. apply (IH t (or_introl eq_refl) _ _ _ Ee Ht1); [apply locals_cons; [reflexivity|exact Hv]|left; reflexivity|apply stable_sel, Hnw].
        -- apply (IHts (fun t H => IH t (or_intror H)) Ht2 (i + 1) l' Hl).
    + constructor; [apply var_ok, Hw|constructor].
  - destruct ((1 <=? n) && (n <=? 32)); [|discriminate]. exact (enc_one _ t vs name e IH He Ht Hv Hw Hn).
  - apply some_inj in He as <-. apply x_call. split; [apply stable_ok, Hn|]. constructor; [apply var_ok, Hw|constructor].
Qed.
Definition size_goal (t : sty) : Prop := forall vs name e, size_x t name = Some e -> type_fits types tps t -> Forall local vs -> In (tx "size") vs ->
  stable vs name -> x_ok vs e.
Lemma sfun_ok vs x t g e : localb (tx x) = true -> go_type t = Some g -> type_fits types tps t -> Forall local vs ->
  x_ok (tx x :: vs) e -> x_ok vs (sfun x g e).
Proof.
  intros Hx Hg Ht Hv He. unfold sfun. apply x_fun. cbn [map snd fst app GoClosed.block_ok]. split; [|split; [|split; [|exact I]]].
  - constructor; [|constructor]. apply (type_ok t g vs Hg Hv), Ht.
  - constructor; [apply gname_ok; [exact Hv|reflexivity|reflexivity]|constructor].
  - apply y_ret. constructor; [exact He|constructor].
Qed.
Lemma size_one fn t vs name e : size_goal t -> 
  (match go_type t, size_x t (xid "v") with Some g, Some e => Some (XCall (xbuf fn [g]) [name; sfun "v" g e]) | _, _ => None end) = Some e ->
  type_fits types tps t -> Forall local vs -> In (tx "size") vs -> stable vs name -> x_ok vs e.
Proof.
  intros IH H Ht Hv Hw Hn. destruct (go_type t) as [g|] eqn:Eg; [|discriminate]. destruct (size_x t (xid "v")) as [e'|] eqn:Ee; [|discriminate].
  apply some_inj in H as <-. apply x_call. split; [apply buf_fn; [exact Hv|]; constructor; [apply (type_ok t g vs Eg Hv), Ht|constructor]|].
  constructor; [apply stable_ok, Hn|]. constructor; [|constructor].
  apply (sfun_ok vs "v" t); [reflexivity|exact Eg|exact Ht|exact Hv|]. apply (IH _ (xid "v")); [exact Ee|exact Ht| |right; exact Hw|apply stable_var; left; reflexivity].
  repeat apply locals_cons; try reflexivity. exact Hv.
Qed.
Lemma size_ok t : size_goal t.
Proof.
  induction t as [p|t IH|k v IHk IHv|t IH|t IH|t IH|ts IH|t n IH|path name' ts IH] using sty_ind2; intros vs name e He Ht Hv Hw Hn; cbn [size_x] in He; cbn [type_fits] in Ht.
  - apply some_inj in He as <-. apply x_call. split; [apply buf_fn; [exact Hv|constructor]|]. constructor; [apply stable_ok, Hn|constructor].
  - exact (size_one _ t vs name e IH He Ht Hv Hw Hn).
  - destruct (go_type k) as [gk|] eqn:Ek; [|discriminate]. destruct (go_type v) as [gv|] eqn:Ev; [|discriminate].
    destruct (size_x k (xid "k")) as [ek|] eqn:Eek; [|discriminate]. destruct (size_x v (xid "v")) as [ev|] eqn:Eev; [|discriminate]. apply some_inj in He as <-. destruct Ht as [Hk Hvv].
    apply x_calllines. split; [apply buf_fn; [exact Hv|]; constructor; [apply (type_ok k gk vs Ek Hv), Hk|constructor; [apply (type_ok v gv vs Ev Hv), Hvv|constructor]]|].
    split; [constructor; [apply stable_ok, Hn|constructor]|]. constructor; [|constructor; [|constructor]].
    + apply (sfun_ok vs "k" k); [reflexivity|exact Ek|exact Hk|exact Hv|]. apply (IHk _ (xid "k")); [exact Eek|exact Hk| |right; exact Hw|apply stable_var; left; reflexivity].
      repeat apply locals_cons; try reflexivity. exact Hv.
    + apply (sfun_ok vs "v" v); [reflexivity|exact Ev|exact Hvv|exact Hv|]. apply (IHv _ (xid "v")); [exact Eev|exact Hvv| |right; exact Hw|apply stable_var; left; reflexivity].
      repeat apply locals_cons; try reflexivity. exact Hv.
  - exact (size_one _ t vs name e IH He Ht Hv Hw Hn).
  - exact (size_one _ t vs name e IH He Ht Hv Hw Hn).
  - pose proof (stable_get _ _ Hn) as Hg.
    destruct t as [p|t|k v|t|t|t|ts|t n|path name' ts]; try discriminate He.
    + destruct (nz_encodable p); [|discriminate]. apply some_inj in He as <-. apply x_call. split; [apply buf_fn; [exact Hv|constructor]|]. constructor; [apply stable_ok, Hg|constructor].
    + exact (IH vs _ e He Ht Hv Hw Hg).
    + exact (IH vs _ e He Ht Hv Hw Hg).
    + exact (IH vs _ e He Ht Hv Hw Hg).
  - rewrite fits_all in Ht. destruct ((2 <=? length ts)%nat && (length ts <=? 12)%nat); [|discriminate]. apply omap_some in He as (l & Hl & ->). rewrite x_call. split.
    + apply x_fun. cbn [map snd fst app]. split; [constructor|]. split; [constructor; [apply gname_ok; [exact Hv|reflexivity|reflexivity]|constructor]|].
      cbn [GoClosed.block_ok binds app]. split; [exact I|].
      pose proof (stable_more vs (tx "size" :: vs) name (incl_tl _ (incl_refl _)) Hn) as Hnw. revert l Hl. generalize 0 as i. clear Hn. induction ts as [|t ts IHts]; intros i l Hl; cbn [collect] in Hl.
      * apply some_inj in Hl as <-. cbn [app GoClosed.block_ok]. split; [|exact I]. apply y_ret. constructor; [apply var_ok; left; reflexivity|constructor].
      * destruct (size_x t (XSel name (tx "F" ++ dec_str i))) as [e|] eqn:Ee; [|discriminate]. cbn [option_map] in Hl. apply omap_some in Hl as (l' & Hl & ->).
        apply Forall_cons_iff in Ht as [Ht1 Ht2]. cbn [app GoClosed.block_ok binds]. split.
        -- cbn [GoClosed.x_ok]. split; [left; left; reflexivity|]. apply (IH t (or_introl eq_refl) _ _ _ Ee Ht1); [apply locals_cons; [reflexivity|exact Hv]|left; reflexivity|apply stable_sel, Hnw].
        -- apply (IHts (fun t H => IH t (or_intror H)) Ht2 (i + 1) l' Hl).
    + constructor; [apply var_ok, Hw|constructor].
  - destruct ((1 <=? n) && (n <=? 32)); [|discriminate]. exact (size_one _ t vs name e IH He Ht Hv Hw Hn).
  - apply some_inj in He as <-. apply x_call. split; [apply stable_ok, Hn|constructor].
Qed.

(** Reading: right exactly when there is no tuple in the type. *)
Definition fresh (vs : list str) : Prop := ~ In (tx "value") vs /\ ~ In (tx "tuple") vs.
Definition dec_goal (t : sty) : Prop := forall vs e, dec_x t = Some e -> type_fits types tps t -> Forall local vs -> In (tx "r") vs -> fresh vs ->
  (x_ok vs e <-> tuple_free t).
Lemma fresh_cons x vs : str_eqb x (tx "value") = false -> str_eqb x (tx "tuple") = false -> fresh vs -> fresh (x :: vs).
Proof.
  intros H1 H2 [H3 H4]. split; intros [E|H]; [|exact (H3 H)| |exact (H4 H)]; subst x; rewrite (proj2 (str_eqb_eq _ _) eq_refl) in *; discriminate.
Qed.
Lemma error_ok vs : Forall local vs -> ty_ok vs (gname "error").
Proof. intros Hv. apply gname_ok; [exact Hv|reflexivity|reflexivity]. Qed.
Lemma dfun_ok vs t g e : dec_goal t -> go_type t = Some g -> dec_x t = Some e -> type_fits types tps t -> Forall local vs -> fresh vs ->
  (x_ok vs (dfun g e) <-> tuple_free t).
Proof.
  intros IH Hg He Ht Hv Hf. unfold dfun. rewrite x_fun. cbn [map snd fst app GoClosed.block_ok]. rewrite y_ret.
  assert (HI : x_ok (tx "r" :: vs) e <-> tuple_free t) by (apply (IH (tx "r" :: vs) e He Ht); [apply locals_cons; [reflexivity|exact Hv]|left; reflexivity|apply fresh_cons; [reflexivity|reflexivity|exact Hf]]).
  split; [intros (_ & _ & H & _); apply HI, (Forall_inv H)|]. intros H. apply HI in H. split; [constructor; [apply bytes_ok, Hv|constructor]|]. split; [|split; [constructor; [exact H|constructor]|exact I]].
  constructor; [apply bytes_ok, Hv|]. constructor; [apply (type_ok t g vs Hg Hv), Ht|]. constructor; [apply error_ok, Hv|constructor].
Qed.
Lemma dec_one fn t vs e : dec_goal t ->
  (match go_type t, dec_x t with Some g, Some e => Some (dcall fn g e) | _, _ => None end) = Some e ->
  type_fits types tps t -> Forall local vs -> In (tx "r") vs -> fresh vs -> (x_ok vs e <-> tuple_free t).
Proof.
  intros IH H Ht Hv Hr Hf. destruct (go_type t) as [g|] eqn:Eg; [|discriminate]. destruct (dec_x t) as [e'|] eqn:Ee; [|discriminate].
  apply some_inj in H as <-. unfold dcall. rewrite x_call, buf_fn by exact Hv. rewrite !Forall_cons_iff, (dfun_ok vs t g e' IH Eg Ee Ht Hv Hf).
  split; [tauto|]. intros H. split; [split; [apply (type_ok t g vs Eg Hv), Ht|constructor]|]. split; [apply var_ok, Hr|]. split; [exact H|constructor].
Qed.
Lemma dec_two fn k v vs e : dec_goal k -> dec_goal v ->
  (match go_type k, go_type v, dec_x k, dec_x v with Some gk, Some gv, Some ek, Some ev => Some (dcall2 fn gk gv ek ev) | _, _, _, _ => None end) = Some e ->
  type_fits types tps k -> type_fits types tps v -> Forall local vs -> In (tx "r") vs -> fresh vs -> (x_ok vs e <-> tuple_free k /\ tuple_free v).
Proof.
  intros IHk IHv H Hk Hvv Hv Hr Hf. destruct (go_type k) as [gk|] eqn:Ek; [|discriminate]. destruct (go_type v) as [gv|] eqn:Ev; [|discriminate].
  destruct (dec_x k) as [ek|] eqn:Eek; [|discriminate]. destruct (dec_x v) as [ev|] eqn:Eev; [|discriminate]. apply some_inj in H as <-.
  unfold dcall2. rewrite x_calllines, buf_fn by exact Hv. rewrite !Forall_cons_iff, (dfun_ok vs k gk ek IHk Ek Eek Hk Hv Hf), (dfun_ok vs v gv ev IHv Ev Eev Hvv Hv Hf).
  split; [tauto|]. intros [H1 H2]. split; [|split; [split; [apply var_ok, Hr|constructor]|split; [exact H1|split; [exact H2|constructor]]]].
  split; [apply (type_ok k gk vs Ek Hv), Hk|]. split; [apply (type_ok v gv vs Ev Hv), Hvv|constructor].
Qed.
Lemma dec_ok t : dec_goal t.
Proof.
  induction t as [p|t IH|k v IHk IHv|t IH|t IH|t IH|ts IH|t n IH|path name ts IH] using sty_ind2; intros vs e He Ht Hv Hr Hf; cbn [dec_x] in He; cbn [tuple_free].
  - apply some_inj in He as <-. rewrite x_call, buf_fn by exact Hv. split; [tauto|]. intros _. split; [constructor|]. constructor; [apply var_ok, Hr|constructor].
  - exact (dec_one _ t vs e IH He Ht Hv Hr Hf).
  - exact (dec_two _ k v vs e IHk IHv He (proj1 Ht) (proj2 Ht) Hv Hr Hf).
  - exact (dec_one _ t vs e IH He Ht Hv Hr Hf).
  - exact (dec_one _ t vs e IH He Ht Hv Hr Hf).
  - cbn [type_fits] in Ht. destruct t as [p|t|k v|t|t|t|ts|t n|path name ts]; try discriminate He.
    + destruct (nz_encodable p); [|discriminate]. apply some_inj in He as <-. rewrite x_call, buf_fn by exact Hv. split; [cbn [tuple_free]; tauto|]. intros _. split; [constructor|]. constructor; [apply var_ok, Hr|constructor].
    + destruct (go_type t) as [g|] eqn:Eg; [|discriminate]. destruct (dec_x t) as [e'|] eqn:Ee; [|discriminate]. apply some_inj in He as <-.
      apply (IH vs (dcall (tx "DecodeVec") g e')); [cbn [dec_x]; rewrite Eg, Ee; reflexivity|exact Ht|exact Hv|exact Hr|exact Hf].
    + destruct (go_type k) as [gk|] eqn:Ek; [|discriminate]. destruct (go_type v) as [gv|] eqn:Ev; [|discriminate].
      destruct (dec_x k) as [ek|] eqn:Eek; [|discriminate]. destruct (dec_x v) as [ev|] eqn:Eev; [|discriminate]. apply some_inj in He as <-.
      apply (IH vs (dcall2 (tx "DecodeHashMap") gk gv ek ev)); [cbn [dec_x]; rewrite Ek, Ev, Eek, Eev; reflexivity|exact Ht|exact Hv|exact Hr|exact Hf].
    + destruct (go_type t) as [g|] eqn:Eg; [|discriminate]. destruct (dec_x t) as [e'|] eqn:Ee; [|discriminate]. apply some_inj in He as <-.
      apply (IH vs (dcall (tx "DecodeHashSet") g e')); [cbn [dec_x]; rewrite Eg, Ee; reflexivity|exact Ht|exact Hv|exact Hr|exact Hf].
  - split; [|intros []]. destruct ((2 <=? length ts)%nat && (length ts <=? 12)%nat) eqn:El; [|discriminate]. apply omap_some in He as (l & Hl & ->).
    destruct ts as [|t ts]; [cbn [length Nat.leb andb] in El; discriminate|]. cbn [collect] in Hl. destruct (dec_x t) as [e|]; [|discriminate]. cbn [option_map] in Hl. apply omap_some in Hl as (l' & _ & ->).
    rewrite x_call, x_fun. cbn [map fst snd app concat GoClosed.block_ok binds]. intros ((_ & _ & _ & H & _) & _). unfold if_err in H. rewrite y_if in H. destruct H as [_ H].
    cbn [GoClosed.block_ok] in H. rewrite y_ret, !Forall_cons_iff in H. destruct H as ((_ & H & _) & _). cbn [GoClosed.x_ok] in H. destruct H as [H|[H|H]].
    + destruct H as [H|[H|[H|[H|H]]]]; [discriminate H| |discriminate H|discriminate H|exact (proj1 Hf H)].
      change (tx "value" ++ dec_str 0 = tx "value") in H. vm_compute in H. discriminate H.
    + exact (not_value (tx "value") eq_refl H).
    + cbn in H. repeat (destruct H as [H|H]; [discriminate H|]). destruct H.
  - destruct ((1 <=? n) && (n <=? 32)); [|discriminate]. exact (dec_one _ t vs e IH He Ht Hv Hr Hf).
  - apply omap_some in He as (g & Hg & ->). split; [tauto|]. intros _. rewrite x_callnl, x_fun. cbn [map fst snd app GoClosed.block_ok binds].
    pose proof (type_ok _ g vs Hg Hv) as Hty. apply proj2 in Hty. specialize (Hty Ht). split.
    + split; [constructor; [apply bytes_ok, Hv|constructor]|]. split; [constructor; [apply bytes_ok, Hv|]; constructor; [exact Hty|]; constructor; [apply error_ok, Hv|constructor]|].
      split; [|split; [|exact I]].
      * cbn [GoClosed.x_ok]. apply (type_ok _ g (tx "r" :: vs) Hg); [apply locals_cons; [reflexivity|exact Hv]|exact Ht].
      * apply y_ret. constructor; [|constructor]. apply x_call. split; [left; left; reflexivity|]. constructor; [left; right; left; reflexivity|constructor].
    + constructor; [apply var_ok, Hr|constructor].
Qed.

Lemma block_plain vs l : Forall (fun s => x_ok vs s /\ binds s = []) l -> block_ok vs l.
Proof. intros H. induction H as [|s l [H1 H2] _ IH]; [exact I|]. cbn [GoClosed.block_ok]. rewrite H2. split; [exact H1|exact IH]. Qed.
Lemma plain_binds vs l : Forall (fun s => x_ok vs s /\ binds s = []) l -> flat_map binds (rev l) = [].
Proof.
  intros H. assert (H' : Forall (fun s => binds s = []) (rev l)) by (apply Forall_rev; eapply Forall_impl; [|exact H]; intros a [_ E]; exact E).
  clear H. induction H' as [|s r E _ IH]; [reflexivity|]. cbn [flat_map]. rewrite E, IH. reflexivity.
Qed.

Lemma enc_field_ok vs f s : enc_field f = Some s -> type_fits types tps (sf_ty f) -> Forall local vs -> In (tx "w") vs -> In (tx "v") vs -> x_ok vs s /\ binds s = [].
Proof.
  intros H Ht Hv Hw Hvv. unfold enc_field in H.
  assert (Hplain : forall t e, enc_x t (XSel (xid "v") (camel (sf_name f))) = Some e -> type_fits types tps t ->
    x_ok vs (YSet (xid "w") (XCall (xbuf (tx "EncodeField") []) [xid "w"; XNum (sf_id f); XFun true [(tx "w", gbytes)] [gbytes] [YRet [e]]]))).
  { intros t e He Hf. split; [apply var_ok, Hw|]. change (x_ok vs (XCall (xbuf (tx "EncodeField") []) [xid "w"; XNum (sf_id f); XFun true [(tx "w", gbytes)] [gbytes] [YRet [e]]])).
    rewrite x_call, buf_fn by exact Hv. split; [constructor|]. constructor; [apply var_ok, Hw|]. constructor; [exact I|]. constructor; [|constructor].
    apply x_fun. split; [constructor; [apply bytes_ok, Hv|constructor]|]. split; [constructor; [apply bytes_ok, Hv|constructor]|]. split; [|exact I]. apply y_ret. constructor; [|constructor].
    apply (enc_ok t _ _ _ He Hf); [apply locals_cons; [reflexivity|exact Hv]|left; reflexivity|]. apply stable_sel, stable_var. right. exact Hvv. }
  destruct (sf_ty f) as [p|t|k v|t|t|t|ts|t n|path name ts] eqn:Et; try (apply omap_some in H as (e & He & ->); split; [exact (Hplain _ e He Ht)|reflexivity]).
  destruct (go_type t) as [g|] eqn:Eg; [|discriminate]. destruct (enc_x t (xid "v")) as [e|] eqn:Ee; [|discriminate]. apply some_inj in H as <-. split; [|reflexivity].
  split; [apply var_ok, Hw|]. match goal with |- ?G => let G' := constr:(x_ok vs (XCall (xbuf (tx "EncodeFieldOption") [g]) [xid "w"; XNum (sf_id f); XAddr (XSel (xid "v") (camel (sf_name f)));
             XFun true [(tx "w", gbytes); (tx "v", g)] [gbytes] [YRet [e]]])) in change G' end.
  rewrite x_call, buf_fn by exact Hv. pose proof (proj2 (type_ok t g vs Eg Hv) Ht) as Hg. split; [constructor; [exact Hg|constructor]|].
  constructor; [apply var_ok, Hw|]. constructor; [exact I|]. constructor; [left; exact Hvv|]. constructor; [|constructor].
  apply x_fun. split; [constructor; [apply bytes_ok, Hv|constructor; [exact Hg|constructor]]|]. split; [constructor; [apply bytes_ok, Hv|constructor]|]. split; [|exact I]. apply y_ret. constructor; [|constructor].
  apply (enc_ok t _ _ _ Ee Ht); [apply locals_cons; [reflexivity|apply locals_cons; [reflexivity|exact Hv]]|left; reflexivity|]. apply stable_var. right. left. reflexivity.
Qed.
Lemma enc_fields_ok vs fs l last : enc_fields fs = Some l -> Forall (fun f => type_fits types tps (sf_ty f)) (ss_fields fs) ->
  Forall local vs -> In (tx "w") vs -> In (tx "v") vs -> stable vs last -> block_ok vs (l ++ [YRet [last]]).
Proof.
  intros H Hf Hv Hw Hvv Hl. apply block_plain. apply Forall_app. split; [|constructor; [|constructor]; split; [apply y_ret; constructor; [apply stable_ok, Hl|constructor]|reflexivity]].
  assert (Hm : forall l', collect (map enc_field (ss_fields fs)) = Some l' -> Forall (fun s => x_ok vs s /\ binds s = []) (l' ++ [YSet (xid "w") (XCall (xbuf (tx "EncodeU32") []) [xid "w"; xbuf (tx "EndMarker") []])])).
  { intros l' Hc. apply collect_forall2 in Hc. apply Forall_app. split.
    - eapply forall2_forall; [exact Hc|]. intros f s Hi E. rewrite Forall_forall in Hf. exact (enc_field_ok vs f s E (Hf f Hi) Hv Hw Hvv).
    - constructor; [|constructor]. split; [|reflexivity]. split; [apply var_ok, Hw|]. change (x_ok vs (XCall (xbuf (tx "EncodeU32") []) [xid "w"; xbuf (tx "EndMarker") []])).
      rewrite x_call, buf_fn by exact Hv. split; [constructor|]. constructor; [apply var_ok, Hw|]. constructor; [|constructor]. apply buf_fn; [exact Hv|constructor]. }
  unfold enc_fields in H. destruct (ss_kind fs); [apply omap_some in H as (l' & Hc & ->); exact (Hm l' Hc)..|]. apply some_inj in H as <-. constructor.
Qed.
Lemma size_field_ok vs f s : size_field f = Some s -> type_fits types tps (sf_ty f) -> Forall local vs -> In (tx "size") vs -> In (tx "v") vs -> x_ok vs s /\ binds s = [].
Proof.
  intros H Ht Hv Hw Hvv. unfold size_field in H. assert (Hint : ty_ok vs (gname "int")) by (apply gname_ok; [exact Hv|reflexivity|reflexivity]).
  assert (Hplain : forall t e, size_x t (XSel (xid "v") (camel (sf_name f))) = Some e -> type_fits types tps t ->
    x_ok vs (YAdd (xid "size") (XCall (xbuf (tx "SizeField") []) [XNum (sf_id f); XFun false [] [gname "int"] [YRet [e]]]))).
  { intros t e He Hf. split; [apply var_ok, Hw|]. change (x_ok vs (XCall (xbuf (tx "SizeField") []) [XNum (sf_id f); XFun false [] [gname "int"] [YRet [e]]])).
    rewrite x_call, buf_fn by exact Hv. split; [constructor|]. constructor; [exact I|]. constructor; [|constructor].
    apply x_fun. split; [constructor|]. split; [constructor; [exact Hint|constructor]|]. split; [|exact I]. apply y_ret. constructor; [|constructor].
    apply (size_ok t _ _ _ He Hf); [exact Hv|exact Hw|]. apply stable_sel, stable_var. exact Hvv. }
  destruct (sf_ty f) as [p|t|k v|t|t|t|ts|t n|path name ts] eqn:Et; try (apply omap_some in H as (e & He & ->); split; [exact (Hplain _ e He Ht)|reflexivity]).
  destruct (go_type t) as [g|] eqn:Eg; [|discriminate]. destruct (size_x t (xid "v")) as [e|] eqn:Ee; [|discriminate]. apply some_inj in H as <-. split; [|reflexivity].
  split; [apply var_ok, Hw|]. match goal with |- ?G => let G' := constr:(x_ok vs (XCall (xbuf (tx "SizeFieldOption") [g]) [XNum (sf_id f); XAddr (XSel (xid "v") (camel (sf_name f)));
             XFun true [(tx "v", g)] [gname "int"] [YRet [e]]])) in change G' end.
  rewrite x_call, buf_fn by exact Hv. pose proof (proj2 (type_ok t g vs Eg Hv) Ht) as Hg. split; [constructor; [exact Hg|constructor]|].
  constructor; [exact I|]. constructor; [left; exact Hvv|]. constructor; [|constructor].
  apply x_fun. split; [constructor; [exact Hg|constructor]|]. split; [constructor; [exact Hint|constructor]|]. split; [|exact I]. apply y_ret. constructor; [|constructor].
  apply (size_ok t _ _ _ Ee Ht); [apply locals_cons; [reflexivity|exact Hv]|right; exact Hw|]. apply stable_var. left. reflexivity.
Qed.
Lemma size_fields_ok vs fs l : size_fields fs = Some l -> Forall (fun f => type_fits types tps (sf_ty f)) (ss_fields fs) ->
  Forall local vs -> In (tx "v") vs -> block_ok vs (YDef [tx "size"] (XNum 0) :: l ++ [YRet [xid "size"]]).
Proof.
  intros H Hf Hv0 Hvv0. cbn [GoClosed.block_ok]. split; [exact I|]. change (block_ok (tx "size" :: vs) (l ++ [YRet [xid "size"]])).
  assert (Hv : Forall local (tx "size" :: vs)) by (apply locals_cons; [reflexivity|exact Hv0]). assert (Hvv : In (tx "v") (tx "size" :: vs)) by (right; exact Hvv0).
  assert (Hw : In (tx "size") (tx "size" :: vs)) by (left; reflexivity). generalize dependent (tx "size" :: vs). clear vs Hv0 Hvv0. intros vs Hv Hvv Hw.
  apply block_plain. apply Forall_app. split; [|constructor; [|constructor]; split; [apply y_ret; constructor; [apply var_ok, Hw|constructor]|reflexivity]].
  assert (Hm : forall l', collect (map size_field (ss_fields fs)) = Some l' -> Forall (fun s => x_ok vs s /\ binds s = []) (l' ++ [YAdd (xid "size") (xbuf (tx "EndMarkerSize") [])])).
  { intros l' Hc. apply collect_forall2 in Hc. apply Forall_app. split.
    - eapply forall2_forall; [exact Hc|]. intros f s Hi E. rewrite Forall_forall in Hf. exact (size_field_ok vs f s E (Hf f Hi) Hv Hw Hvv).
    - constructor; [|constructor]. split; [|reflexivity]. split; [apply var_ok, Hw|]. apply buf_fn; [exact Hv|constructor]. }
  unfold size_fields in H. destruct (ss_kind fs); [apply omap_some in H as (l' & Hc & ->); exact (Hm l' Hc)..|]. apply some_inj in H as <-. constructor.
Qed.

Lemma if_err_ok vs es : In (tx "err") vs -> Forall (x_ok vs) es -> x_ok vs (if_err es).
Proof. intros H He. unfold if_err. apply y_if. split; [split; [left; exact H|apply nil_ok]|]. split; [apply y_ret; exact He|exact I]. Qed.
Lemma dec_case_ok vs f c : dec_case f = Some c -> type_fits types tps (sf_ty f) -> Forall local vs -> In (tx "r") vs -> In (tx "v") vs -> In (found_name f) vs -> fresh vs ->
  (x_ok vs (fst c) /\ block_ok vs (snd c) <-> tuple_free (sf_ty f)).
Proof.
  intros H Ht Hv Hr Hvv Hfo Hf. unfold dec_case in H. apply omap_some in H as (e & He & ->). cbn [fst snd GoClosed.block_ok binds].
  rewrite <- (dec_ok _ vs e He Ht Hv Hr Hf). split; [intros (_ & H & _); exact H|]. intros H. split; [exact I|]. split; [exact H|].
  set (us := [tx "r2"; tx "value"; tx "err"] ++ vs). assert (Hin : incl vs us) by (intros x Hx; right; right; right; exact Hx).
  split; [apply if_err_ok; [right; right; left; reflexivity|]; constructor; [apply nil_ok|constructor; [left; right; right; left; reflexivity|constructor]]|].
  split; [split; [left; apply Hin, Hr|left; left; reflexivity]|]. split; [split; [left; apply Hin, Hvv|left; right; left; reflexivity]|].
  split; [|exact I]. split; [left; apply Hin, Hfo|]. right. right. cbn. auto.
Qed.
Lemma binds_found l vs : flat_map binds (rev (map (fun f => YDef [found_name f] (xid "false")) l)) ++ vs = map found_name (rev l) ++ vs.
Proof. f_equal. rewrite <- map_rev. induction (rev l) as [|f r IH]; [reflexivity|]. cbn [map flat_map binds app]. rewrite IH. reflexivity. Qed.
Lemma found_block l : forall vs, block_ok vs (map (fun f => YDef [found_name f] (xid "false")) l).
Proof. induction l as [|f l IH]; intros vs; [exact I|]. cbn [map GoClosed.block_ok]. split; [right; right; cbn; auto|apply IH]. Qed.
Lemma found_fresh l vs : fresh vs -> fresh (map found_name l ++ vs).
Proof. intros H. induction l as [|f l IH]; [exact H|]. cbn [map]. apply (fresh_cons (found_name f)); [reflexivity|reflexivity|exact IH]. Qed.
Lemma dec_body_ok fs b : dec_body fs = Some b -> Forall (fun f => type_fits types tps (sf_ty f)) (ss_fields fs) ->
  (block_ok [tx "v"; tx "r"] b <-> Forall (fun f => tuple_free (sf_ty f)) (ss_fields fs)).
Proof.
  intros H Hf. unfold dec_body in H. apply omap_some in H as (cs & Hc & ->). apply collect_forall2 in Hc.
  rewrite block_app, binds_found. set (vs := map found_name (rev (ss_fields fs)) ++ [tx "v"; tx "r"]).
  assert (Hv : Forall local vs). { apply Forall_app. split; [apply Forall_forall; intros x Hx; apply in_map_iff in Hx as (f & <- & _); apply found_local|repeat constructor]. }
  assert (Hvv : In (tx "v") vs) by (apply in_or_app; right; left; reflexivity). assert (Hr : In (tx "r") vs) by (apply in_or_app; right; right; left; reflexivity).
  assert (Hfr : fresh vs) by (apply found_fresh; split; vm_compute; intros [E|[E|[]]]; discriminate E).
  assert (Hfo : forall f, In f (ss_fields fs) -> In (found_name f) vs) by (intros f Hi; apply in_or_app; left; apply in_map; apply -> in_rev; exact Hi).
  clearbody vs. set (us := [tx "r2"; tx "id"; tx "err"] ++ vs).
  assert (Hus : incl vs us) by (intros x Hx; right; right; right; exact Hx).
  assert (Hul : Forall local us) by (repeat (apply locals_cons; [reflexivity|]); exact Hv).
  assert (Huf : fresh us) by (repeat (apply fresh_cons; [reflexivity|reflexivity|]); exact Hfr).
  assert (HC : Forall (fun c => x_ok us (fst c) /\ block_ok us (snd c)) cs <-> Forall (fun f => tuple_free (sf_ty f)) (ss_fields fs)).
  { apply (forall2_iff _ _ _ _ _ Hc). intros f c Hi E. rewrite Forall_forall in Hf. apply (dec_case_ok us f c E (Hf f Hi) Hul); [apply Hus, Hr|apply Hus, Hvv|apply Hus, Hfo, Hi|exact Huf]. }
  cbn [app GoClosed.block_ok binds]. rewrite y_for. cbn [GoClosed.block_ok binds]. rewrite y_switch, Forall_app.
  split.
  - intros (_ & _ & (_ & _ & _ & _ & _ & (_ & H & _) & _) & _). apply HC, H.
  - intros H. apply HC in H. split; [apply found_block|]. split; [exact I|]. split; [|split; [exact I|]].
    + split; [change (x_ok vs (XCall (xid "len") [xid "r"])); apply x_call; split; [right; right; cbn; auto|constructor; [left; exact Hr|constructor]]|].
      split; [change (x_ok vs (XCall (xbuf (tx "DecodeID") []) [xid "r"])); rewrite x_call, buf_fn by exact Hv; split; [constructor|constructor; [left; exact Hr|constructor]]|].
      split; [apply if_err_ok; [right; right; left; reflexivity|constructor; [apply nil_ok|constructor; [left; right; right; left; reflexivity|constructor]]]|].
      split; [split; [left; apply Hus, Hr|left; left; reflexivity]|]. split; [exact I|]. split; [|exact I].
      split; [left; right; left; reflexivity|]. split; [exact H|]. constructor; [|constructor]. cbn [fst snd]. split; [apply (buf_fn us); [exact Hul|constructor]|]. split; [exact I|exact I].
    + rewrite block_app. assert (HP : Forall (fun s => x_ok vs s /\ binds s = []) (map (found_check (ss_kind fs)) (ss_fields fs))).
      { apply Forall_forall. intros s Hs. apply in_map_iff in Hs as (f & <- & Hi). split; [|reflexivity]. unfold found_check. apply y_if. split; [left; apply Hfo, Hi|].
        split; [|exact I]. apply y_ret. constructor; [apply nil_ok|]. constructor; [|constructor]. apply pkg_ok; [exact Hv|right; reflexivity]. }
      split; [apply block_plain, HP|]. rewrite (plain_binds _ _ HP). cbn [app]. split; [exact I|]. split; [|exact I]. apply y_ret. constructor; [left; exact Hr|]. constructor; [apply nil_ok|constructor].
Qed.
End Types.

(** * Declarations *)
Lemma forall_and {A} (P Q : A -> Prop) l : Forall (fun x => P x /\ Q x) l <-> Forall P l /\ Forall Q l.
Proof. split; [intros H; split; eapply Forall_impl; try exact H; cbv beta; tauto|]. intros [H1 H2]. rewrite Forall_forall in *. auto. Qed.
Section Units.
Context {F : Type}.
Variables (types : list (str * nat)) (values : list str).
Hypothesis types_high : Forall (fun p => starts_low (fst p) = false) types.
Hypothesis values_high : Forall (fun x => starts_low x = false) values.
Let imports : list str := [tx "mabo"; tx "buf"].
Notation item_ok := (item_ok (F := F) imports types values).

Lemma applied_ok tps vs name g : In (name, length g) types ->
  (ty_ok imports types tps vs (applied name g) <->
   ~ In name vs /\ (In name tps -> g = []) /\ Forall (fun x => ~ In x vs /\ resolves types tps x 0) g).
Proof.
  intros Hn. unfold applied. rewrite ty_named, map_length, Forall_map.
  assert (E : Forall (fun x => ty_ok imports types tps vs (GNamed x [])) g <-> Forall (fun x => ~ In x vs /\ resolves types tps x 0) g).
  { split; intros H; (eapply Forall_impl; [|exact H]); intros x; cbv beta; rewrite ty_named; cbn [length]; [tauto|]. intros [H1 H2]. repeat split; [exact H1|exact H2|constructor]. }
  rewrite E. assert (E2 : resolves types tps name (length g) <-> (In name tps -> g = [])).
  { unfold resolves. destruct (in_dec (list_eq_dec N.eq_dec) name tps) as [Hi|Hi].
    - split; [intros [[_ H]|[H _]]; [intros _; destruct g; [reflexivity|discriminate]|contradiction]|]. intros H. left. split; [exact Hi|]. rewrite (H Hi). reflexivity.
    - split; [intros _ H; contradiction|]. intros _. right. auto. }
  rewrite E2. reflexivity.
Qed.
Lemma unit_ok c name g fs l nf k last : In (name, length g) types ->
  go_fields fs = Some l -> new_func name g fs = Some nf -> codec (F := F) name g fs last = Some k -> last = xid "w" \/ last = xid "nil" ->
  (Forall item_ok (IStruct c name g l :: nf :: k) <-> fields_fit types name g fs).
Proof.
  intros Hname Hl Hnf Hk Hlast. unfold go_fields in Hl. apply collect_forall2 in Hl. unfold new_func in Hnf. apply omap_some in Hnf as (ps & Hps & ->).
  unfold go_params_of in Hps. apply collect_forall2 in Hps.
  unfold codec in Hk. destruct (enc_fields fs) as [e|] eqn:Ee; [|discriminate]. destruct (dec_body fs) as [d|] eqn:Ed; [|discriminate]. destruct (size_fields fs) as [z|] eqn:Ez; [|discriminate].
  apply some_inj in Hk as <-. rewrite !Forall_cons_iff. cbn [GoClosed.item_ok map snd fst].
  assert (E1 : Forall (fun f => ty_ok imports types g [] (snd (snd f))) l <-> Forall (fun f => type_fits types g (sf_ty f)) (ss_fields fs)).
  { apply (forall2_iff _ _ _ _ _ Hl). intros f y _ E. apply omap_some in E as (t & Ht & ->). apply (type_ok types g types_high (sf_ty f) t [] Ht). constructor. }
  assert (E2 : Forall (ty_ok imports types g []) (map snd ps) <-> Forall (fun f => type_fits types g (sf_ty f)) (ss_fields fs)).
  { rewrite Forall_map. apply (forall2_iff _ _ _ _ _ Hps). intros f y _ E. apply omap_some in E as (t & Ht & ->). apply (type_ok types g types_high (sf_ty f) t [] Ht). constructor. }
  assert (E3 : map fst ps = map (fun f => lower_camel (sf_name f)) (ss_fields fs)).
  { clear - Hps. induction Hps as [|f y a b E _ IH]; [reflexivity|]. cbn [map]. apply omap_some in E as (t & _ & ->). cbn [fst]. f_equal. exact IH. }
  assert (Hself : Forall (fun x => ~ In x [] /\ resolves types g x 0) g) by (apply Forall_forall; intros x Hx; split; [intros []|left; auto]).
  assert (Hnil : forall x : str, ~ In x []) by (intros x []).
  rewrite (applied_ok g [] name g Hname), !(applied_ok [] [] name g Hname). rewrite E1, E2.
  assert (E4 : block_ok imports types values g (map fst ps) [YRet [XLit (applied name g) (map (fun f => (camel (sf_name f), XId (lower_camel (sf_name f)))) (ss_fields fs))]] <->
    ~ In name (map fst ps) /\ (In name g -> g = []) /\ Forall (fun x => ~ In x (map fst ps) /\ resolves types g x 0) g).
  { cbn [GoClosed.block_ok]. rewrite y_ret, Forall_cons_iff, x_lit, (applied_ok g (map fst ps) name g Hname). split; [tauto|]. intros H. split; [|exact I]. split; [|constructor]. split; [exact H|].
    rewrite Forall_map. apply Forall_forall. intros f Hi. cbn [snd]. left. rewrite E3. apply in_map_iff. exists f. auto. }
  rewrite E4. unfold fields_fit. rewrite (forall_and (fun f => type_fits types g (sf_ty f)) (fun f => tuple_free (sf_ty f))).
  assert (Hv1 : Forall local [tx "v"; tx "w"]) by (repeat constructor). assert (Hv2 : Forall local [tx "v"]) by (repeat constructor).
  assert (Hbytes : ty_ok imports types g [] gbytes) by (apply (bytes_ok types g types_high); constructor).
  assert (Herr : ty_ok imports types g [] (gname "error")) by (apply (gname_ok types g types_high); [constructor|reflexivity|reflexivity]).
  assert (Hint : ty_ok imports types g [] (gname "int")) by (apply (gname_ok types g types_high); [constructor|reflexivity|reflexivity]).
  assert (Hgn : (In name g -> g = []) <-> ~ In name g) by (split; [intros H Hi; rewrite (H Hi) in Hi; destruct Hi|tauto]).
  rewrite Hgn.
  assert (E5 : ~ In name (map fst ps) /\ Forall (fun x => ~ In x (map fst ps) /\ resolves types g x 0) g <->
    Forall (fun f => lower_camel (sf_name f) <> name /\ ~ In (lower_camel (sf_name f)) g) (ss_fields fs)).
  { rewrite E3. split.
    - intros [H1 H2]. apply Forall_forall. intros f Hi. split; [intros E; apply H1; apply in_map_iff; exists f; auto|]. intros Hg. rewrite Forall_forall in H2. apply (H2 _ Hg). apply in_map_iff. exists f. auto.
    - intros H. rewrite Forall_forall in H. split.
      + intros Hi. apply in_map_iff in Hi as (f & E & Hi). exact (proj1 (H f Hi) E).
      + apply Forall_forall. intros x Hx. split; [|left; auto]. intros Hi. apply in_map_iff in Hi as (f & E & Hi). apply (proj2 (H f Hi)). rewrite E. exact Hx. }
  split.
  - intros (H1 & (H2 & H3 & H4) & H5 & H6 & H7 & H8 & _). destruct H5 as (_ & _ & _ & H5). split; [eapply Forall_impl; [|exact H5]; cbv beta; tauto|]. split; [tauto|]. split.
    + split; [exact H1|]. destruct H8 as (_ & _ & _ & H8). apply (dec_body_ok types values g types_high values_high fs d Ed H1), H8.
    + apply E5. tauto.
  - intros (H1 & H2 & (H3 & H4) & H5). apply E5 in H5 as [H5 H6].
    assert (HC : In (tx "buf") imports /\ ~ In name [] /\ (In name [] -> g = []) /\ Forall (fun x => ~ In x [] /\ resolves types [] x 0) g).
    { split; [cbn; auto|]. split; [apply Hnil|]. split; [intros []|]. eapply Forall_impl; [|exact H1]. intros x Hx. split; [apply Hnil|exact Hx]. }
    split; [exact H3|]. split; [tauto|]. split; [exact HC|]. split; [|split; [exact HC|split; [|split; [exact HC|split; [|constructor]]]]].
    + split; [exact Hname|]. split; [constructor; [exact Hbytes|constructor]|]. split; [constructor; [exact Hbytes|constructor]|].
      eapply enc_fields_ok; [exact types_high|exact Ee|exact H3|exact Hv1|right; left; reflexivity|left; reflexivity|].
      destruct Hlast as [-> | ->]; [apply stable_var; right; left; reflexivity|]. intros vs _. right. right. cbn. auto.
    + split; [exact Hname|]. split; [constructor; [exact Hbytes|constructor]|]. split; [constructor; [exact Hbytes|constructor; [exact Herr|constructor]]|].
      apply (dec_body_ok types values g types_high values_high fs d Ed H3), H4.
    + split; [exact Hname|]. split; [constructor|]. split; [constructor; [exact Hint|constructor]|].
      eapply size_fields_ok; [exact types_high|exact Ez|exact H3|exact Hv2|left; reflexivity].
Qed.

Lemma codec_names name g fs last k : codec (F := F) name g fs last = Some k -> flat_map item_types k = [] /\ flat_map item_values k = [].
Proof. unfold codec. destruct (enc_fields fs); [|discriminate]. destruct (dec_body fs); [|discriminate]. destruct (size_fields fs); [|discriminate]. intros H. apply some_inj in H as <-. split; reflexivity. Qed.
Lemma new_names name g fs nf : new_func (F := F) name g fs = Some nf -> item_types nf = [] /\ item_values nf = [tx "New" ++ name].
Proof. unfold new_func. intros H. apply omap_some in H as (ps & _ & ->). split; reflexivity. Qed.
Lemma variant_parts n g v its : go_variant (F := F) n g v = Some its ->
  exists l nf k, its = IStruct (sv_comment v) (variant_name n v) (variant_generics g v) l :: IMethod false (variant_name n v) (variant_generics g v) (tx "sealed") [] [] [] :: nf :: k /\
    go_fields (sv_fields v) = Some l /\ new_func (F := F) (variant_name n v) (variant_generics g v) (sv_fields v) = Some nf /\
    codec (F := F) (variant_name n v) (variant_generics g v) (sv_fields v) (xid "nil") = Some k.
Proof.
  unfold go_variant. destruct (go_fields (sv_fields v)) as [l|]; [|discriminate]. destruct (new_func _ _ _) as [nf|]; [|discriminate]. destruct (codec _ _ _ _) as [k|]; [|discriminate].
  intros H. apply some_inj in H as <-. exists l, nf, k. auto.
Qed.
Lemma struct_parts c n g fs its : go_struct (F := F) c n g fs = Some its ->
  exists l nf k, its = IStruct c (camel n) g l :: nf :: k /\
    go_fields fs = Some l /\ new_func (F := F) (camel n) g fs = Some nf /\ codec (F := F) (camel n) g fs (xid "w") = Some k.
Proof.
  unfold go_struct. destruct (go_fields fs) as [l|]; [|discriminate]. destruct (new_func _ _ _) as [nf|]; [|discriminate]. destruct (codec _ _ _ _) as [k|]; [|discriminate].
  intros H. apply some_inj in H as <-. exists l, nf, k. auto.
Qed.
Lemma enum_parts c n g vs its : go_enum (F := F) c n g vs = Some its ->
  exists l, its = IInterface (camel n ++ tx "Variant") [tx "sealed"] :: IDefined c (camel n) (GNamed (camel n ++ tx "Variant") []) :: concat l /\
    Forall2 (fun v i => go_variant (F := F) n g v = Some i) vs l.
Proof. unfold go_enum. intros H. apply omap_some in H as (l & Hl & ->). exists l. split; [reflexivity|]. apply collect_forall2, Hl. Qed.
Lemma def_ok d its : go_items d = Some its -> incl (schema_types d) types -> (Forall item_ok its <-> def_fits types d).
Proof.
  intros H Hi. destruct d as [c n ds|c n g fs|c n g vs|c n g t|c n t v|seg el]; cbn [go_items def_fits schema_types] in *.
  - apply some_inj in H as <-. split; [tauto|]. intros _. constructor.
  - apply struct_parts in H as (l & nf & k & -> & Hl & Hnf & Hk). eapply unit_ok; [apply Hi; left; reflexivity|exact Hl|exact Hnf|exact Hk|left; reflexivity].
  - apply enum_parts in H as (l & -> & Hl). rewrite !Forall_cons_iff. cbn [GoClosed.item_ok]. rewrite Forall_concat.
    assert (E : Forall (Forall item_ok) l <-> Forall (fun v => fields_fit types (variant_name n v) (variant_generics g v) (sv_fields v)) vs).
    { apply (forall2_iff _ _ _ _ _ Hl). intros v i Hv E. apply variant_parts in E as (l' & nf & k & -> & Hl' & Hnf & Hk).
      assert (Hin : In (variant_name n v, length (variant_generics g v)) types) by (apply Hi; right; right; apply in_map_iff; exists v; auto).
      rewrite <- (unit_ok (sv_comment v) _ _ _ l' nf k _ Hin Hl' Hnf Hk (or_intror eq_refl)). rewrite !Forall_cons_iff.
      assert (Hs : item_ok (IMethod false (variant_name n v) (variant_generics g v) (tx "sealed") [] [] [])) by (split; [exact Hin|]; split; [constructor|]; split; [constructor|exact I]).
      tauto. }
    rewrite E. split; [tauto|]. intros HE. split; [exact I|]. split; [|exact HE]. apply ty_named. split; [intros []|]. split; [|constructor]. right. split; [intros []|]. left. apply Hi. left. reflexivity.
  - apply omap_some in H as (g' & Hg & ->). rewrite Forall_cons_iff. cbn [GoClosed.item_ok].
    pose proof (type_ok types [] types_high t g' [] Hg (Forall_nil _)) as E. unfold imports. rewrite E. split; [tauto|]. intros Ht. split; [exact Ht|constructor].
  - apply omap_some in H as (g' & Hg & ->). rewrite Forall_cons_iff. cbn [GoClosed.item_ok]. unfold const_type in Hg. destruct t as [p|t|k w|t|t|t|ts|t m|path name ts]; try discriminate.
    assert (Hg' : g' = go_prim p) by (destruct p; try discriminate Hg; congruence). subst g'. unfold imports. rewrite (prim_fits types [] types_high p [] (Forall_nil _)).
    split; [intros [[H1 H2] _]; split; congruence|]. intros [H1 H2]. split; [split; congruence|constructor].
  - apply some_inj in H as <-. split; [tauto|]. intros _. constructor.
Qed.
End Units.

Section Files.
Context {F : Type}.
Implicit Type ds : list (sdef F).
Lemma variant_types n g v its : go_variant (F := F) n g v = Some its ->
  flat_map item_types its = [(variant_name n v, length (variant_generics g v))] /\ flat_map item_values its = [tx "New" ++ variant_name n v].
Proof.
  intros H. apply variant_parts in H as (l & nf & k & -> & _ & Hnf & Hk). destruct (new_names _ _ _ _ Hnf) as [E1 E2]. destruct (codec_names _ _ _ _ _ Hk) as [E3 E4].
  cbn [flat_map item_types item_values]. rewrite E1, E2, E3, E4. split; reflexivity.
Qed.
Lemma def_types (d : sdef F) its : go_items d = Some its -> flat_map item_types its = schema_types d /\ Forall (fun x => starts_low x = false) (flat_map item_values its).
Proof.
  intros H. destruct d as [c n ds|c n g fs|c n g vs|c n g t|c n t v|seg el]; cbn [go_items schema_types] in *.
  - apply some_inj in H as <-. split; [reflexivity|constructor].
  - apply struct_parts in H as (l & nf & k & -> & _ & Hnf & Hk). destruct (new_names _ _ _ _ Hnf) as [E1 E2]. destruct (codec_names _ _ _ _ _ Hk) as [E3 E4].
    cbn [flat_map item_types item_values]. rewrite E1, E2, E3, E4. split; [reflexivity|]. constructor; [reflexivity|constructor].
  - apply enum_parts in H as (l & -> & Hl). cbn [flat_map item_types item_values app]. split.
    + f_equal. f_equal. induction Hl as [|v i vs l E _ IH]; [reflexivity|]. cbn [concat map]. rewrite flat_map_app, IH. rewrite (proj1 (variant_types _ _ _ _ E)). reflexivity.
    + induction Hl as [|v i vs l E _ IH]; [constructor|]. cbn [concat]. rewrite flat_map_app, Forall_app. split; [|exact IH]. rewrite (proj2 (variant_types _ _ _ _ E)). constructor; [reflexivity|constructor].
  - apply omap_some in H as (g' & Hg & ->). split; [reflexivity|constructor].
  - apply omap_some in H as (g' & Hg & ->). split; [reflexivity|]. constructor; [apply camel_not_low|constructor].
  - apply some_inj in H as <-. split; [reflexivity|constructor].
Qed.
Lemma schema_types_high (d : sdef F) : Forall (fun p => starts_low (fst p) = false) (schema_types d).
Proof.
  destruct d as [c n ds|c n g fs|c n g vs|c n g t|c n t v|seg el]; cbn [schema_types]; try constructor; try apply camel_not_low; try constructor.
  - apply camel_app_not_low. reflexivity.
  - apply camel_not_low.
  - apply Forall_forall. intros p Hp. apply in_map_iff in Hp as (v & <- & _). apply variant_not_low.
Qed.
Lemma file_names ds l : Forall2 (fun d i => go_items d = Some i) ds l ->
  flat_map item_types (concat l) = flat_map schema_types ds /\ Forall (fun x => starts_low x = false) (flat_map item_values (concat l)).
Proof.
  intros H. induction H as [|d i ds l E _ [IH1 IH2]]; [split; [reflexivity|constructor]|]. cbn [concat flat_map]. rewrite !flat_map_app, IH1, Forall_app.
  destruct (def_types d i E) as [E1 E2]. rewrite E1. auto.
Qed.
Lemma names_iff c p ds f : go_file c p ds = Some f -> (names_declared f <-> Forall (def_fits (flat_map schema_types ds)) ds).
Proof.
  unfold go_file. intros H. apply omap_some in H as (l & Hl & ->). apply collect_forall2 in Hl. unfold names_declared. cbn [g_imports g_items map fst the_imports].
  destruct (file_names ds l Hl) as [E1 E2]. rewrite E1, Forall_concat.
  assert (Hh : Forall (fun p => starts_low (fst p) = false) (flat_map schema_types ds)).
  { apply Forall_forall. intros q Hq. apply in_flat_map in Hq as (d & _ & Hq). pose proof (schema_types_high d) as Hd. rewrite Forall_forall in Hd. apply Hd, Hq. }
  apply (forall2_iff _ _ _ _ _ Hl). intros d i Hd E. apply def_ok; [exact Hh|exact E2|exact E|]. intros q Hq. apply in_flat_map. exists d. auto.
Qed.
End Files.

(** * Imports *)
Lemma in_flat_iff {A B} (f : A -> list B) (P : A -> Prop) y l : (forall x, In x l -> (In y (f x) <-> P x)) -> (In y (flat_map f l) <-> Exists P l).
Proof.
  intros H. rewrite in_flat_map, Exists_exists. split; intros (x & Hx & Hy); exists x; (split; [exact Hx|]); apply (H x Hx), Hy.
Qed.
Definition pk_goal (p : str) (t : sty) : Prop := forall g, go_type t = Some g -> (In p (ty_packages g) <-> asks p t).
Lemma forall2_exists {A B} (R : A -> B -> Prop) (P : A -> Prop) (Q : B -> Prop) l r :
  Forall2 R l r -> (forall x y, In x l -> R x y -> (Q y <-> P x)) -> (Exists Q r <-> Exists P l).
Proof.
  intros H. induction H as [|x y l r Hxy _ IH]; intros HQ; [split; intros H; inversion H|].
  rewrite !Exists_cons, (HQ x y (or_introl eq_refl) Hxy), IH; [reflexivity|]. intros a b Ha. apply HQ. right. exact Ha.
Qed.
Lemma args_packages p ts l : Forall2 (fun t g => go_type t = Some g) ts l -> (forall t, In t ts -> pk_goal p t) -> (In p (flat_map ty_packages l) <-> Exists (asks p) ts).
Proof.
  intros Hl IH. rewrite (in_flat_iff ty_packages (fun g => In p (ty_packages g))) by (intros; reflexivity).
  apply (forall2_exists _ _ _ _ _ Hl). intros t g Ht E. apply IH; assumption.
Qed.
Lemma type_packages p t : pk_goal p t.
Proof.
  induction t as [q|t IH|k v IHk IHv|t IH|t IH|t IH|ts IH|t n IH|path name ts IH] using sty_ind2; intros g Hg; cbn [go_type] in Hg; cbn [asks].
  - apply some_inj in Hg as <-. split.
    + intros H. destruct q; cbn in H; try contradiction; destruct H as [<-|[]]; auto.
    + intros [[-> | ->] ->]; left; reflexivity.
  - apply omap_some in Hg as (g' & Hg & ->). apply (IH g' Hg).
  - destruct (go_type k) as [gk|] eqn:Ek; [|discriminate]. destruct (go_type v) as [gv|] eqn:Ev; [|discriminate]. apply some_inj in Hg as <-.
    cbn [ty_packages]. rewrite in_app_iff, (IHk gk Ek), (IHv gv Ev). reflexivity.
  - apply omap_some in Hg as (g' & Hg & ->). cbn [ty_packages]. rewrite app_nil_r. apply (IH g' Hg).
  - apply omap_some in Hg as (g' & Hg & ->). apply (IH g' Hg).
  - unfold mabo_nz in Hg. destruct t as [q|t|k v|t|t|t|ts|t n|path name ts]; try discriminate Hg.
    + apply omap_some in Hg as (n & _ & ->). cbn [ty_packages flat_map In]. split; [intros [E|[]]; auto|intros [E|[]]; auto].
    + apply omap_some in Hg as (g' & Hg & ->). rewrite <- (IH (GSlice g')) by (cbn [go_type]; rewrite Hg; reflexivity). cbn [ty_packages flat_map In]. rewrite app_nil_r. split; intros [E|H]; auto.
    + destruct (go_type k) as [gk|] eqn:Ek; [|discriminate]. destruct (go_type v) as [gv|] eqn:Ev; [|discriminate]. apply some_inj in Hg as <-.
      rewrite <- (IH (GMap gk gv)) by (cbn [go_type]; rewrite Ek, Ev; reflexivity). cbn [ty_packages flat_map In]. rewrite app_nil_r. split; intros [E|H]; auto.
    + apply omap_some in Hg as (g' & Hg & ->). rewrite <- (IH (GMap g' GEmpty)) by (cbn [go_type]; rewrite Hg; reflexivity). cbn [ty_packages flat_map In]. split; intros [E|H]; auto.
  - apply omap_some in Hg as (l & Hl & ->). apply collect_forall2 in Hl. cbn [ty_packages In]. rewrite asks_some, (args_packages p ts l Hl IH). split; intros [E|H]; auto.
  - apply omap_some in Hg as (g' & Hg & ->). apply (IH g' Hg).
  - apply omap_some in Hg as (l & Hl & ->). apply collect_forall2 in Hl. rewrite asks_some, <- (args_packages p ts l Hl IH). destruct (rev path) as [|q r]; cbn [ty_packages In]; [tauto|].
    split; intros [E|H]; auto.
Qed.

(** What the code of a field can mention. *)
Definition codes (p : str) (name : list str) (t : sty) : Prop := p = tx "buf" \/ In p name \/ asks p t.
Ltac pk := repeat match goal with
  | H : In _ (_ ++ _) |- _ => apply in_app_iff in H
  | H : In _ (_ :: _) |- _ => destruct H as [H|H]
  | H : In _ [] |- _ => destruct H
  | H : _ \/ _ |- _ => destruct H as [H|H]
  | H : _ /\ _ |- _ => destruct H
  | H : False |- _ => destruct H
  end.
Lemma enc_packages p t : forall name e, enc_x t name = Some e -> In p (x_packages e) -> codes p (x_packages name) t.
Proof.
  unfold codes.
  assert (Hone : forall fn t name e, (forall name e, enc_x t name = Some e -> In p (x_packages e) -> p = tx "buf" \/ In p (x_packages name) \/ asks p t) ->
    (match go_type t, enc_x t (xid "v") with Some g, Some e => Some (XCall (xbuf fn [g]) [xid "w"; name; efun "v" g e]) | _, _ => None end) = Some e ->
    In p (x_packages e) -> p = tx "buf" \/ In p (x_packages name) \/ asks p t).
  { intros fn u name e IH H Hp. destruct (go_type u) as [g|] eqn:Eg; [|discriminate]. destruct (enc_x u (xid "v")) as [e'|] eqn:Ee; [|discriminate].
    apply some_inj in H as <-. unfold xbuf, efun in Hp. cbn [x_packages flat_map map snd xid ty_packages gbytes gname] in Hp. rewrite ?app_nil_r in Hp. cbn [app] in Hp.
    pose proof (proj1 (type_packages p u g Eg)) as Hg. pk; auto. destruct (IH _ _ Ee Hp) as [H|[H|H]]; auto. destruct H. }
  induction t as [q|t IH|k v IHk IHv|t IH|t IH|t IH|ts IH|t n IH|path name' ts IH] using sty_ind2; intros name e He Hp; cbn [enc_x] in He.
  - apply some_inj in He as <-. cbn [x_packages flat_map xbuf xid] in Hp. rewrite app_nil_r in Hp. pk; auto.
  - exact (Hone _ t name e IH He Hp).
  - destruct (go_type k) as [gk|] eqn:Ek; [|discriminate]. destruct (go_type v) as [gv|] eqn:Ev; [|discriminate].
    destruct (enc_x k (xid "k")) as [ek|] eqn:Eek; [|discriminate]. destruct (enc_x v (xid "v")) as [ev|] eqn:Eev; [|discriminate]. apply some_inj in He as <-.
    unfold xbuf, efun in Hp. cbn [x_packages flat_map map snd xid ty_packages gbytes gname] in Hp. rewrite ?app_nil_r in Hp. cbn [app] in Hp.
    pose proof (proj1 (type_packages p k gk Ek)) as Hgk. pose proof (proj1 (type_packages p v gv Ev)) as Hgv. cbn [asks]. pk; auto.
    + destruct (IHk _ _ Eek Hp) as [H|[H|H]]; auto. destruct H.
    + destruct (IHv _ _ Eev Hp) as [H|[H|H]]; auto. destruct H.
  - exact (Hone _ t name e IH He Hp).
  - exact (Hone _ t name e IH He Hp).
  - cbn [asks]. destruct t as [q|t|k v|t|t|t|ts|t n|path name' ts]; try discriminate He.
    + destruct (nz_encodable q); [|discriminate]. apply some_inj in He as <-. cbn [x_packages flat_map xbuf xid xget] in Hp. rewrite !app_nil_r in Hp. pk; auto.
    + destruct (IH _ _ He Hp) as [H|[H|H]]; auto. cbn [x_packages flat_map xget] in H. rewrite app_nil_r in H. auto.
    + destruct (IH _ _ He Hp) as [H|[H|H]]; auto. cbn [x_packages flat_map xget] in H. rewrite app_nil_r in H. auto.
    + destruct (IH _ _ He Hp) as [H|[H|H]]; auto. cbn [x_packages flat_map xget] in H. rewrite app_nil_r in H. auto.
  - cbn [asks]. rewrite asks_some. destruct ((2 <=? length ts)%nat && (length ts <=? 12)%nat); [|discriminate]. apply omap_some in He as (l & Hl & ->).
    cbn [x_packages flat_map map snd xid ty_packages gbytes gname app] in Hp. rewrite flat_map_app in Hp. cbn [x_packages flat_map xid] in Hp. rewrite !app_nil_r in Hp.
    revert l Hl Hp. generalize 0 as i. induction ts as [|t ts IHts]; intros i l Hl Hp; cbn [collect] in Hl.
    + apply some_inj in Hl as <-. destruct Hp.
    + destruct (enc_x t (XSel name (tx "F" ++ dec_str i))) as [e|] eqn:Ee; [|discriminate]. cbn [option_map] in Hl. apply omap_some in Hl as (l' & Hl & ->).
      cbn [flat_map x_packages xid app] in Hp. rewrite Exists_cons. apply in_app_iff in Hp as [Hp|Hp].
      * destruct (IH t (or_introl eq_refl) _ _ Ee Hp) as [H|[H|H]]; auto.
      * destruct (IHts (fun t H => IH t (or_intror H)) (i + 1) l' Hl Hp) as [H|[H|[H|H]]]; auto.
  - destruct ((1 <=? n) && (n <=? 32)); [|discriminate]. exact (Hone _ t name e IH He Hp).
  - apply some_inj in He as <-. cbn [x_packages flat_map xid] in Hp. rewrite !app_nil_r in Hp. auto.
Qed.
Lemma size_packages p t : forall name e, size_x t name = Some e -> In p (x_packages e) -> codes p (x_packages name) t.
Proof.
  unfold codes.
  assert (Hone : forall fn t name e, (forall name e, size_x t name = Some e -> In p (x_packages e) -> p = tx "buf" \/ In p (x_packages name) \/ asks p t) ->
    (match go_type t, size_x t (xid "v") with Some g, Some e => Some (XCall (xbuf fn [g]) [name; sfun "v" g e]) | _, _ => None end) = Some e ->
    In p (x_packages e) -> p = tx "buf" \/ In p (x_packages name) \/ asks p t).
  { intros fn u name e IH H Hp. destruct (go_type u) as [g|] eqn:Eg; [|discriminate]. destruct (size_x u (xid "v")) as [e'|] eqn:Ee; [|discriminate].
    apply some_inj in H as <-. unfold xbuf, sfun in Hp. cbn [x_packages flat_map map snd xid ty_packages gbytes gname] in Hp. rewrite ?app_nil_r in Hp. cbn [app] in Hp.
    pose proof (proj1 (type_packages p u g Eg)) as Hg. pk; auto. destruct (IH _ _ Ee Hp) as [H|[H|H]]; auto. destruct H. }
  induction t as [q|t IH|k v IHk IHv|t IH|t IH|t IH|ts IH|t n IH|path name' ts IH] using sty_ind2; intros name e He Hp; cbn [size_x] in He.
  - apply some_inj in He as <-. cbn [x_packages flat_map xbuf xid] in Hp. rewrite app_nil_r in Hp. pk; auto.
  - exact (Hone _ t name e IH He Hp).
  - destruct (go_type k) as [gk|] eqn:Ek; [|discriminate]. destruct (go_type v) as [gv|] eqn:Ev; [|discriminate].
    destruct (size_x k (xid "k")) as [ek|] eqn:Eek; [|discriminate]. destruct (size_x v (xid "v")) as [ev|] eqn:Eev; [|discriminate]. apply some_inj in He as <-.
    unfold xbuf, sfun in Hp. cbn [x_packages flat_map map snd xid ty_packages gbytes gname] in Hp. rewrite ?app_nil_r in Hp. cbn [app] in Hp.
    pose proof (proj1 (type_packages p k gk Ek)) as Hgk. pose proof (proj1 (type_packages p v gv Ev)) as Hgv. cbn [asks]. pk; auto.
    + destruct (IHk _ _ Eek Hp) as [H|[H|H]]; auto. destruct H.
    + destruct (IHv _ _ Eev Hp) as [H|[H|H]]; auto. destruct H.
  - exact (Hone _ t name e IH He Hp).
  - exact (Hone _ t name e IH He Hp).
  - cbn [asks]. destruct t as [q|t|k v|t|t|t|ts|t n|path name' ts]; try discriminate He.
    + destruct (nz_encodable q); [|discriminate]. apply some_inj in He as <-. cbn [x_packages flat_map xbuf xid xget] in Hp. rewrite !app_nil_r in Hp. pk; auto.
    + destruct (IH _ _ He Hp) as [H|[H|H]]; auto. cbn [x_packages flat_map xget] in H. rewrite app_nil_r in H. auto.
    + destruct (IH _ _ He Hp) as [H|[H|H]]; auto. cbn [x_packages flat_map xget] in H. rewrite app_nil_r in H. auto.
    + destruct (IH _ _ He Hp) as [H|[H|H]]; auto. cbn [x_packages flat_map xget] in H. rewrite app_nil_r in H. auto.
  - cbn [asks]. rewrite asks_some. destruct ((2 <=? length ts)%nat && (length ts <=? 12)%nat); [|discriminate]. apply omap_some in He as (l & Hl & ->).
    cbn [x_packages flat_map map snd xid ty_packages gbytes gname app] in Hp. rewrite flat_map_app in Hp. cbn [x_packages flat_map xid] in Hp. rewrite !app_nil_r in Hp.
    revert l Hl Hp. generalize 0 as i. induction ts as [|t ts IHts]; intros i l Hl Hp; cbn [collect] in Hl.
    + apply some_inj in Hl as <-. destruct Hp.
    + destruct (size_x t (XSel name (tx "F" ++ dec_str i))) as [e|] eqn:Ee; [|discriminate]. cbn [option_map] in Hl. apply omap_some in Hl as (l' & Hl & ->).
      cbn [flat_map x_packages xid app] in Hp. rewrite Exists_cons. apply in_app_iff in Hp as [Hp|Hp].
      * destruct (IH t (or_introl eq_refl) _ _ Ee Hp) as [H|[H|H]]; auto.
      * destruct (IHts (fun t H => IH t (or_intror H)) (i + 1) l' Hl Hp) as [H|[H|[H|H]]]; auto.
  - destruct ((1 <=? n) && (n <=? 32)); [|discriminate]. exact (Hone _ t name e IH He Hp).
  - apply some_inj in He as <-. cbn [x_packages flat_map xid] in Hp. rewrite !app_nil_r in Hp. auto.
Qed.

Lemma dec_packages p t : forall e, dec_x t = Some e -> In p (x_packages e) -> p = tx "buf" \/ asks p t.
Proof.
  assert (Hone : forall fn t e, (forall e, dec_x t = Some e -> In p (x_packages e) -> p = tx "buf" \/ asks p t) ->
    (match go_type t, dec_x t with Some g, Some e => Some (dcall fn g e) | _, _ => None end) = Some e -> In p (x_packages e) -> p = tx "buf" \/ asks p t).
  { intros fn u e IH H Hp. destruct (go_type u) as [g|] eqn:Eg; [|discriminate]. destruct (dec_x u) as [e'|] eqn:Ee; [|discriminate].
    apply some_inj in H as <-. unfold dcall, xbuf, dfun in Hp. cbn [x_packages flat_map map snd xid ty_packages gbytes gname] in Hp. rewrite ?app_nil_r in Hp. cbn [app] in Hp.
    pose proof (proj1 (type_packages p u g Eg)) as Hg. pk; auto. exact (IH _ eq_refl Hp). }
  assert (Htwo : forall fn k v e, (forall e, dec_x k = Some e -> In p (x_packages e) -> p = tx "buf" \/ asks p k) -> (forall e, dec_x v = Some e -> In p (x_packages e) -> p = tx "buf" \/ asks p v) ->
    (match go_type k, go_type v, dec_x k, dec_x v with Some gk, Some gv, Some ek, Some ev => Some (dcall2 fn gk gv ek ev) | _, _, _, _ => None end) = Some e ->
    In p (x_packages e) -> p = tx "buf" \/ asks p k \/ asks p v).
  { intros fn k v e IHk IHv H Hp. destruct (go_type k) as [gk|] eqn:Ek; [|discriminate]. destruct (go_type v) as [gv|] eqn:Ev; [|discriminate].
    destruct (dec_x k) as [ek|] eqn:Eek; [|discriminate]. destruct (dec_x v) as [ev|] eqn:Eev; [|discriminate]. apply some_inj in H as <-.
    unfold dcall2, xbuf, dfun in Hp. cbn [x_packages flat_map map snd xid ty_packages gbytes gname] in Hp. rewrite ?app_nil_r in Hp. cbn [app] in Hp.
    pose proof (proj1 (type_packages p k gk Ek)) as Hgk. pose proof (proj1 (type_packages p v gv Ev)) as Hgv. pk; auto.
    - destruct (IHk _ eq_refl Hp); auto.
    - destruct (IHv _ eq_refl Hp); auto. }
  induction t as [q|t IH|k v IHk IHv|t IH|t IH|t IH|ts IH|t n IH|path name' ts IH] using sty_ind2; intros e He Hp; cbn [dec_x] in He; cbn [asks].
  - apply some_inj in He as <-. cbn [x_packages flat_map xbuf xid] in Hp. pk; auto.
  - exact (Hone _ t e IH He Hp).
  - exact (Htwo _ k v e IHk IHv He Hp).
  - exact (Hone _ t e IH He Hp).
  - exact (Hone _ t e IH He Hp).
  - destruct t as [q|t|k v|t|t|t|ts|t n|path name' ts]; try discriminate He.
    + destruct (nz_encodable q); [|discriminate]. apply some_inj in He as <-. cbn [x_packages flat_map xbuf xid] in Hp. pk; auto.
    + destruct (go_type t) as [g|] eqn:Eg; [|discriminate]. destruct (dec_x t) as [e'|] eqn:Ee; [|discriminate]. apply some_inj in He as <-.
      destruct (IH (dcall (tx "DecodeVec") g e')) as [H|H]; [cbn [dec_x]; rewrite Eg, Ee; reflexivity|exact Hp|auto|auto].
    + destruct (go_type k) as [gk|] eqn:Ek; [|discriminate]. destruct (go_type v) as [gv|] eqn:Ev; [|discriminate].
      destruct (dec_x k) as [ek|] eqn:Eek; [|discriminate]. destruct (dec_x v) as [ev|] eqn:Eev; [|discriminate]. apply some_inj in He as <-.
      destruct (IH (dcall2 (tx "DecodeHashMap") gk gv ek ev)) as [H|H]; [cbn [dec_x]; rewrite Ek, Ev, Eek, Eev; reflexivity|exact Hp|auto|auto].
    + destruct (go_type t) as [g|] eqn:Eg; [|discriminate]. destruct (dec_x t) as [e'|] eqn:Ee; [|discriminate]. apply some_inj in He as <-.
      destruct (IH (dcall (tx "DecodeHashSet") g e')) as [H|H]; [cbn [dec_x]; rewrite Eg, Ee; reflexivity|exact Hp|auto|auto].
  - rewrite asks_some. destruct ((2 <=? length ts)%nat && (length ts <=? 12)%nat); [|discriminate]. apply omap_some in He as (l & Hl & ->).
    cbn [x_packages flat_map map snd xid ty_packages gbytes gname app] in Hp. rewrite flat_map_app in Hp. cbn [x_packages flat_map xid app] in Hp. rewrite !app_nil_r in Hp.
    cbn [In] in Hp. destruct Hp as [Hp|Hp]; [auto|]. cut (p = tx "buf" \/ Exists (asks p) ts); [tauto|].
    revert l Hl Hp. generalize 0 as i. induction ts as [|t ts IHts]; intros i l Hl Hp; cbn [collect] in Hl.
    + apply some_inj in Hl as <-. destruct Hp.
    + destruct (dec_x t) as [e|] eqn:Ee; [|discriminate]. cbn [option_map] in Hl. apply omap_some in Hl as (l' & Hl & ->).
      cbn [concat] in Hp. rewrite flat_map_app in Hp. rewrite Exists_cons. apply in_app_iff in Hp as [Hp|Hp].
      * unfold if_err in Hp. cbn [flat_map x_packages xid app] in Hp. rewrite !app_nil_r in Hp. destruct (IH t (or_introl eq_refl) _ Ee Hp) as [H|H]; auto.
      * destruct (IHts (fun t H => IH t (or_intror H)) (i + 1) l' Hl Hp) as [H|H]; auto.
  - destruct ((1 <=? n) && (n <=? 32)); [|discriminate]. exact (Hone _ t e IH He Hp).
  - apply omap_some in He as (g & Hg & ->). apply (type_packages p) in Hg. cbn [asks] in Hg. right. apply Hg.
    cbn [x_packages flat_map map snd xid ty_packages gbytes gname app] in Hp. rewrite !app_nil_r in Hp. pk; auto.
Qed.

Definition field_asks (p : str) (fs : sfields) : Prop := Exists (asks p) (map sf_ty (ss_fields fs)).
Lemma field_asks_in p fs f : In f (ss_fields fs) -> asks p (sf_ty f) -> field_asks p fs.
Proof. intros Hi Ha. apply Exists_exists. exists (sf_ty f). split; [apply in_map; exact Hi|exact Ha]. Qed.
Lemma applied_packages name g : ty_packages (applied name g) = [].
Proof. unfold applied. cbn [ty_packages]. induction g as [|x g IH]; [reflexivity|]. exact IH. Qed.
Lemma enc_body_packages p fs l last : enc_fields fs = Some l -> x_packages last = [] -> In p (flat_map x_packages (l ++ [YRet [last]])) -> p = tx "buf" \/ field_asks p fs.
Proof.
  intros H Hlast Hp. rewrite flat_map_app in Hp. cbn [flat_map x_packages] in Hp. rewrite Hlast, !app_nil_r in Hp.
  assert (Hm : forall l', collect (map enc_field (ss_fields fs)) = Some l' ->
    In p (flat_map x_packages (l' ++ [YSet (xid "w") (XCall (xbuf (tx "EncodeU32") []) [xid "w"; xbuf (tx "EndMarker") []])])) -> p = tx "buf" \/ field_asks p fs).
  { clear l H Hp. intros l Hc Hp. apply collect_forall2 in Hc. rewrite flat_map_app in Hp. apply in_app_iff in Hp as [Hp|Hp]; [|cbn [flat_map x_packages xid xbuf app] in Hp; pk; auto].
    apply in_flat_map in Hp as (s & Hs & Hp). destruct (forall2_in _ _ _ _ Hc Hs) as (f & Hi & E). pose proof (field_asks_in p fs f Hi) as Hfa. unfold enc_field in E.
    assert (Hplain : forall t e, enc_x t (XSel (xid "v") (camel (sf_name f))) = Some e -> (asks p t -> asks p (sf_ty f)) ->
      In p (x_packages (YSet (xid "w") (XCall (xbuf (tx "EncodeField") []) [xid "w"; XNum (sf_id f); XFun true [(tx "w", gbytes)] [gbytes] [YRet [e]]]))) -> p = tx "buf" \/ field_asks p fs).
    { intros t e He Ht Hq. cbn [flat_map x_packages xid xbuf app ty_packages gbytes gname snd] in Hq. rewrite !app_nil_r in Hq. pk; auto.
      destruct (enc_packages p t _ _ He Hq) as [H|[H|H]]; auto. destruct H. }
    destruct (sf_ty f) as [q|t|k v|t|t|t|ts|t n|path name ts] eqn:Et; try (apply omap_some in E as (e & He & ->); exact (Hplain _ e He (fun H => H) Hp)).
    destruct (go_type t) as [g|] eqn:Eg; [|discriminate]. destruct (enc_x t (xid "v")) as [e|] eqn:Ee; [|discriminate]. apply some_inj in E as <-.
    cbn [flat_map x_packages xid xbuf app ty_packages gbytes gname snd] in Hp. rewrite !app_nil_r in Hp. cbn [app] in Hp. cbn [asks] in Hfa. pose proof (proj1 (type_packages p t g Eg)) as Hg. pk; auto.
    destruct (enc_packages p t _ _ Ee Hp) as [H|[H|H]]; auto. destruct H. }
  unfold enc_fields in H. destruct (ss_kind fs); [apply omap_some in H as (l' & Hc & ->); exact (Hm l' Hc Hp)..|]. apply some_inj in H as <-. destruct Hp.
Qed.
Lemma size_body_packages p fs l : size_fields fs = Some l -> In p (flat_map x_packages (YDef [tx "size"] (XNum 0) :: l ++ [YRet [xid "size"]])) -> p = tx "buf" \/ field_asks p fs.
Proof.
  intros H Hp. cbn [flat_map x_packages app] in Hp. rewrite flat_map_app in Hp. cbn [flat_map x_packages xid] in Hp. rewrite !app_nil_r in Hp.
  assert (Hm : forall l', collect (map size_field (ss_fields fs)) = Some l' ->
    In p (flat_map x_packages (l' ++ [YAdd (xid "size") (xbuf (tx "EndMarkerSize") [])])) -> p = tx "buf" \/ field_asks p fs).
  { clear l H Hp. intros l Hc Hp. apply collect_forall2 in Hc. rewrite flat_map_app in Hp. apply in_app_iff in Hp as [Hp|Hp]; [|cbn [flat_map x_packages xid xbuf app] in Hp; pk; auto].
    apply in_flat_map in Hp as (s & Hs & Hp). destruct (forall2_in _ _ _ _ Hc Hs) as (f & Hi & E). pose proof (field_asks_in p fs f Hi) as Hfa. unfold size_field in E.
    assert (Hplain : forall t e, size_x t (XSel (xid "v") (camel (sf_name f))) = Some e -> (asks p t -> asks p (sf_ty f)) ->
      In p (x_packages (YAdd (xid "size") (XCall (xbuf (tx "SizeField") []) [XNum (sf_id f); XFun false [] [gname "int"] [YRet [e]]]))) -> p = tx "buf" \/ field_asks p fs).
    { intros t e He Ht Hq. cbn [flat_map x_packages xid xbuf app ty_packages gbytes gname snd] in Hq. rewrite !app_nil_r in Hq. pk; auto.
      destruct (size_packages p t _ _ He Hq) as [H|[H|H]]; auto. destruct H. }
    destruct (sf_ty f) as [q|t|k v|t|t|t|ts|t n|path name ts] eqn:Et; try (apply omap_some in E as (e & He & ->); exact (Hplain _ e He (fun H => H) Hp)).
    destruct (go_type t) as [g|] eqn:Eg; [|discriminate]. destruct (size_x t (xid "v")) as [e|] eqn:Ee; [|discriminate]. apply some_inj in E as <-.
    cbn [flat_map x_packages xid xbuf app ty_packages gbytes gname snd] in Hp. rewrite !app_nil_r in Hp. cbn [app] in Hp. cbn [asks] in Hfa. pose proof (proj1 (type_packages p t g Eg)) as Hg. pk; auto.
    destruct (size_packages p t _ _ Ee Hp) as [H|[H|H]]; auto. destruct H. }
  unfold size_fields in H. destruct (ss_kind fs); [apply omap_some in H as (l' & Hc & ->); exact (Hm l' Hc Hp)..|]. apply some_inj in H as <-. destruct Hp.
Qed.
Lemma dec_body_packages p fs b : dec_body fs = Some b -> In p (flat_map x_packages b) -> p = tx "buf" \/ field_asks p fs.
Proof.
  unfold dec_body. intros H Hp. apply omap_some in H as (cs & Hc & ->). apply collect_forall2 in Hc. rewrite !flat_map_app in Hp. unfold if_err in Hp.
  cbn [flat_map x_packages xid xbuf app fst snd] in Hp. rewrite !app_nil_r in Hp. apply in_app_iff in Hp as [Hp|Hp].
  { exfalso. apply in_flat_map in Hp as (s & Hs & Hp). apply in_map_iff in Hs as (f & <- & _). destruct Hp. }
  destruct Hp as [Hp|Hp]; [auto|]. apply in_app_iff in Hp as [Hp|Hp].
  - rewrite flat_map_app in Hp. apply in_app_iff in Hp as [Hp|Hp]; [|cbn [flat_map x_packages xbuf fst snd app] in Hp; pk; auto].
    apply in_flat_map in Hp as (c & Hs & Hp). destruct (forall2_in _ _ _ _ Hc Hs) as (f & Hi & E). unfold dec_case, if_err in E. apply omap_some in E as (e & He & ->).
    cbn [flat_map x_packages xid fst snd app] in Hp. rewrite !app_nil_r in Hp. destruct (dec_packages p _ _ He Hp) as [H|H]; [auto|]. right. exact (field_asks_in p fs f Hi H).
  - left. apply in_flat_map in Hp as (s & Hs & Hp). apply in_map_iff in Hs as (f & <- & _). unfold found_check in Hp. cbn [flat_map x_packages xid app] in Hp. pk. auto.
Qed.
Section UnitPackages.
Context {F : Type}.
Lemma unit_packages p c name g fs l (nf : gitem F) k last : 
  go_fields fs = Some l -> new_func name g fs = Some nf -> codec (F := F) name g fs last = Some k -> x_packages last = [] ->
  (Exists (fun it => In p (item_packages it)) (IStruct c name g l :: nf :: k) <-> p = tx "buf" \/ field_asks p fs).
Proof.
  intros Hl Hnf Hk Hlast. unfold go_fields in Hl. apply collect_forall2 in Hl. unfold new_func in Hnf. apply omap_some in Hnf as (ps & Hps & ->).
  unfold go_params_of in Hps. apply collect_forall2 in Hps.
  unfold codec in Hk. destruct (enc_fields fs) as [e|] eqn:Ee; [|discriminate]. destruct (dec_body fs) as [d|] eqn:Ed; [|discriminate]. destruct (size_fields fs) as [z|] eqn:Ez; [|discriminate].
  apply some_inj in Hk as <-.
  assert (E1 : In p (flat_map (fun f : comment * (str * gty) => ty_packages (snd (snd f))) l) <-> field_asks p fs).
  { rewrite (in_flat_iff _ (fun f : comment * (str * gty) => In p (ty_packages (snd (snd f))))) by (intros; reflexivity). unfold field_asks. rewrite Exists_map.
    apply (forall2_exists _ _ _ _ _ Hl). intros f y _ E. apply omap_some in E as (t & Ht & ->). apply (type_packages p _ t Ht). }
  assert (E2 : In p (flat_map (fun f : str * gty => ty_packages (snd f)) ps) -> field_asks p fs).
  { intros H. apply in_flat_map in H as (y & Hy & H). destruct (forall2_in _ _ _ _ Hps Hy) as (f & Hi & E). apply omap_some in E as (t & Ht & ->). apply (type_packages p _ t Ht) in H. exact (field_asks_in p fs f Hi H). }
  split.
  - intros H. rewrite !Exists_cons in H. cbn [item_packages flat_map x_packages snd] in H. rewrite !applied_packages in H. rewrite !app_nil_r in H.
    destruct H as [H|[H|[H|[H|[H|[H|[H|[H|H]]]]]]]].
    + right. apply E1, H.
    + right. apply in_app_iff in H as [H|H]; [exact (E2 H)|]. exfalso. cbn [app] in H. induction (ss_fields fs) as [|f r IH] in H |- *; [destruct H|exact (IH H)].
    + pk. auto.
    + cbn [ty_packages gbytes gname flat_map app] in H. exact (enc_body_packages p fs e last Ee Hlast H).
    + pk. auto.
    + cbn [ty_packages gbytes gname flat_map app] in H. exact (dec_body_packages p fs d Ed H).
    + pk. auto.
    + cbn [ty_packages gname flat_map app] in H. exact (size_body_packages p fs z Ez H).
    + inversion H.
  - intros [-> |H]; [right; right; left; left; reflexivity|left; apply E1, H].
Qed.
Definition def_uses (p : str) (d : sdef F) : Prop := (p = tx "buf" /\ has_codec d) \/ Exists (asks p) (written_types d) \/ (p = tx "big" /\ match d with SConst _ _ t _ => t = SPrim PrU128 \/ t = SPrim PrI128 | _ => False end).
Lemma def_packages p d its : go_items (F := F) d = Some its -> (Exists (fun it => In p (item_packages it)) its <-> def_uses p d).
Proof.
  intros H. unfold def_uses. destruct d as [c n ds|c n g fs|c n g vs|c n g t|c n t v|seg el]; cbn [go_items has_codec written_types] in *.
  - apply some_inj in H as <-. rewrite !Exists_nil. tauto.
  - apply struct_parts in H as (l & nf & k & -> & Hl & Hnf & Hk). rewrite (unit_packages p c _ _ _ _ _ _ _ Hl Hnf Hk eq_refl). unfold field_asks. tauto.
  - apply enum_parts in H as (l & -> & Hl). rewrite !Exists_cons. cbn [item_packages ty_packages flat_map In].
    assert (E : Exists (fun it => In p (item_packages it)) (concat l) <-> Exists (fun v => p = tx "buf" \/ field_asks p (sv_fields v)) vs).
    { rewrite Exists_concat. apply (forall2_exists _ _ _ _ _ Hl). intros v i _ E. apply variant_parts in E as (l' & nf & k & -> & Hl' & Hnf & Hk).
      rewrite <- (unit_packages p (sv_comment v) _ _ _ _ _ _ _ Hl' Hnf Hk eq_refl). rewrite !Exists_cons. cbn [item_packages flat_map app In]. tauto. }
    rewrite E. assert (E2 : Exists (fun v => p = tx "buf" \/ field_asks p (sv_fields v)) vs <-> p = tx "buf" /\ vs <> [] \/ Exists (asks p) (flat_map (fun v => map sf_ty (ss_fields (sv_fields v))) vs)).
    { clear. induction vs as [|v vs IH]; [rewrite !Exists_nil; cbn; split; [intros []|intros [[_ H]|H]; [congruence|inversion H]]|]. rewrite Exists_cons, IH. cbn [flat_map]. rewrite Exists_app. unfold field_asks.
      split; [intros [[->|H]|[[-> H]|H]]; auto; left; split; try reflexivity; discriminate|]. intros [[-> _]|[H|H]]; auto. }
    rewrite E2. tauto.
  - apply omap_some in H as (g' & Hg & ->). rewrite !Exists_cons, !Exists_nil. cbn [item_packages]. rewrite (type_packages p t g' Hg). tauto.
  - apply omap_some in H as (g' & Hg & ->). rewrite !Exists_cons, !Exists_nil. cbn [item_packages]. unfold const_type in Hg. destruct t as [q|t|k w|t|t|t|ts|t m|path name ts]; try discriminate.
    assert (Hg' : go_type (SPrim q) = Some g') by (destruct q; try discriminate Hg; exact Hg). rewrite (type_packages p _ g' Hg'). cbn [asks]. split.
    + intros [[H1 H2]|[]]. right. right. split; [exact H2|]. destruct H1 as [-> | ->]; auto.
    + intros [[_ []]|[[]|[H1 H2]]]. left. split; [|exact H1]. destruct H2 as [H2|H2]; [left|right]; congruence.
  - apply some_inj in H as <-. rewrite !Exists_nil. tauto.
Qed.
Lemma imports_iff c p (ds : list (sdef F)) f : go_file c p ds = Some f ->
  (imports_used f <-> Exists (fun d => Exists (asks (tx "mabo")) (written_types d)) ds /\ Exists (fun d => has_codec d \/ Exists (asks (tx "buf")) (written_types d)) ds).
Proof.
  unfold go_file. intros H. apply omap_some in H as (l & Hl & ->). apply collect_forall2 in Hl. unfold imports_used. cbn [g_imports g_items]. unfold the_imports. rewrite !Forall_cons_iff. cbn [fst].
  assert (E : forall q, Exists (fun it => In q (item_packages it)) (concat l) <-> Exists (def_uses q) ds).
  { intros q. rewrite Exists_concat. apply (forall2_exists _ _ _ _ _ Hl). intros d i _ E. apply def_packages, E. }
  rewrite !E. split.
  - intros (H1 & H2 & _). split; [eapply Exists_impl; [|exact H1]|eapply Exists_impl; [|exact H2]]; intros d; unfold def_uses; intros [[H3 H4]|[H3|[H3 H4]]]; try discriminate H3; auto.
  - intros (H1 & H2). split; [eapply Exists_impl; [|exact H1]|split; [eapply Exists_impl; [|exact H2]|constructor]]; intros d; unfold def_uses; tauto.
Qed.
Lemma closed_iff c p (ds : list (sdef F)) f : go_file c p ds = Some f -> (closed f <-> module_fits ds).
Proof. intros H. unfold closed, module_fits. rewrite (names_iff c p ds f H), (imports_iff c p ds f H). reflexivity. Qed.
End UnitPackages.
