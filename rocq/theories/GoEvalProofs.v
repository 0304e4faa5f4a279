(** Executing the generated Go file is what [Go] and [GoSize] say. *)
From Verif Require Import Base Varint Wire Codec CodecSpec Syntax Parser Printer Compiler Lower GoNames GoFile GoEval.
From Verif Require Import GoClosedProofs.
From Coq Require FinFun.
From Verif Require Go GoSize LowerProofs ParserRound2 PropAmplify.
Require Coq.Strings.String.
Import Coq.Strings.String.StringSyntax.
Local Open Scope N_scope.

(** The runtime sees of a callback only what it returns. *)
Definition same_writer (c c' : writer) : Prop := forall w, c w = c' w.
Definition same_opt (c c' : option writer) : Prop :=
  match c, c' with Some c, Some c' => same_writer c c' | None, None => True | _, _ => False end.
Definition same_dec {A} (d d' : dec A) : Prop := forall r, d r = d' r.
Record extensional (R : runtime) : Prop := Extensional {
  ex_seq : forall fn cs cs', Forall2 same_writer cs cs' -> same_writer (rt_write_seq R fn cs) (rt_write_seq R fn cs');
  ex_map : forall fn cs cs', Forall2 (fun c c' => same_writer (fst c) (fst c') /\ same_writer (snd c) (snd c')) cs cs' -> same_writer (rt_write_map R fn cs) (rt_write_map R fn cs');
  ex_option : forall fn c c', same_opt c c' -> same_writer (rt_write_option R fn c) (rt_write_option R fn c');
  ex_field : forall fn id c c', same_writer c c' -> same_writer (rt_write_field R fn id c) (rt_write_field R fn id c');
  ex_field_option : forall fn id c c', same_opt c c' -> same_writer (rt_write_field_option R fn id c) (rt_write_field_option R fn id c');
  ex_read_seq : forall fn d d', same_dec d d' -> same_dec (rt_read_seq R fn d) (rt_read_seq R fn d');
  ex_read_map : forall fn d d' e e', same_dec d d' -> same_dec e e' -> same_dec (rt_read_map R fn d e) (rt_read_map R fn d' e');
  ex_read_option : forall fn d d', same_dec d d' -> same_dec (rt_read_option R fn d) (rt_read_option R fn d')
}.

(** Nesting of a value. *)
Fixpoint vdepth (v : val) : nat :=
  match v with
  | VList l | VRec l | VVar _ l => S (list_max (map vdepth l))
  | VMap l => S (list_max (map (fun kv => Nat.max (vdepth (fst kv)) (vdepth (snd kv))) l))
  | VSome v => S (vdepth v)
  | _ => O
  end.
Lemma max_in l x : In x l -> (x <= list_max l)%nat.
Proof. intros H. pose proof (proj1 (list_max_le l (list_max l)) (le_n _)) as K. rewrite Forall_forall in K. auto. Qed.
Lemma depth_in l u : In u l -> (vdepth u <= list_max (map vdepth l))%nat.
Proof. intros H. apply max_in, in_map, H. Qed.

(** The expressions for the value to write. *)
Inductive vexpr : gx -> Prop :=
| ve_v : vexpr (xid "v")
| ve_k : vexpr (xid "k")
| ve_sel e m : vexpr e -> vexpr (XSel e m)
| ve_get e : vexpr e -> vexpr (xget e).

Section Proofs.
Context {F : Type}.
Variables (items : list (gitem F)) (R : runtime) (ds : list (sdef F)) (look : list str -> str -> option nat) (E : env).

(** Types whose references are to structs of the module without type parameters. *)
Fixpoint simple (t : sty) : Prop :=
  let all := fix all (l : list sty) : Prop := match l with [] => True | t :: l' => simple t /\ all l' end in
  match t with
  | SPrim _ => True
  | SVec t | SHashSet t | SOption t | SArray t _ | SNonZero t => simple t
  | SHashMap k v => simple k /\ simple v
  | STuple ts => all ts
  | SExternal path n gs => path = [] /\ gs = [] /\ exists c fs, In (@SStruct F c n [] fs) ds
  end.
(** What the file declares for a struct or variant. *)
Record unit_at (name : str) (fs : sfields) (last : gx) : Prop := UnitAt {
  ua_fields : exists flds, go_fields fs = Some flds /\ struct_decl items name = Some (map snd flds);
  ua_encode : exists e, enc_fields fs = Some e /\ method_decl items name (tx "Encode") = Some ([tx "w"], e ++ [YRet [last]]);
  ua_decode : exists d, dec_body fs = Some d /\ method_decl items name (tx "Decode") = Some ([tx "r"], d);
  ua_size : exists s, size_fields fs = Some s /\ method_decl items name (tx "Size") = Some ([], YDef [tx "size"] (XNum 0) :: s ++ [YRet [xid "size"]]) }.
(** The structs of the module and the definitions they are in [E]. *)
Definition structs_ok : Prop := forall c n fs, In (@SStruct F c n [] fs) ds ->
  unit_at (camel n) fs (xid "w") /\ Forall (fun f => simple (sf_ty f)) (ss_fields fs) /\ NoDup (map (fun f => camel (sf_name f)) (ss_fields fs)) /\
  exists i fs', look [] n = Some i /\ nth_error E i = Some (DStruct fs') /\ lower_fields look [] fs = Some fs'.

Lemma ev_v_push p b nm : vexpr nm -> ev_v items ((tx "w", b) :: p) nm = ev_v items p nm.
Proof. intros H. induction H as [| |e m _ IH|e _ IH]; [reflexivity|reflexivity| |]; cbn [ev_v xget]; rewrite IH; reflexivity. Qed.

Section Write.
Variables (bad : list N) (call : gty -> val -> writer).
Notation evw := (ev_w items R bad call).
Notation enc := (Go.go_enc (buf_of R) E).
Definition call_ok (d : nat) : Prop := forall c n fs i u w, In (@SStruct F c n [] fs) ds -> look [] n = Some i -> typed E (TExt i []) u = true -> (vdepth u <= d)%nat ->
  call (GNamed (camel n) []) u w = enc (TExt i []) u w.

Lemma w_prim p fn ts a nm g v : vexpr nm -> ev_v items p nm = Some (g, v) -> evw p (XCall (XFrom (tx "buf") fn ts) [a; nm]) = evw p a ++ rt_write R fn v.
Proof. intros Hv H. cbn [ev_w]. change (str_eqb (tx "buf") (tx "buf")) with true. cbv iota. unfold ev_arg. destruct Hv; rewrite H; reflexivity. Qed.
Lemma w_call p fn ts a nm s x g1 y g rs e u : vexpr nm -> ev_v items p nm = Some u ->
  evw p (XCall (XFrom (tx "buf") fn ts) [a; nm; XFun s [(x, g1); (y, g)] rs [YRet [e]]]) =
  match snd u with
  | VList l => rt_write_seq R fn (map (fun v w => evw ((y, MV g v) :: (x, BB w) :: p) e) l) (evw p a)
  | VSome v => rt_write_option R fn (Some (fun w => evw ((y, MV g v) :: (x, BB w) :: p) e)) (evw p a)
  | VNone => rt_write_option R fn None (evw p a)
  | _ => bad
  end.
Proof. intros Hv H. destruct u as [g0 u]. cbn [ev_w]. change (str_eqb (tx "buf") (tx "buf")) with true. cbv iota. destruct Hv; rewrite H; destruct u; reflexivity. Qed.

Definition enc_goal (t : sty) : Prop := forall d nm e g t' p w v,
  simple t -> go_type t = Some g -> enc_x t nm = Some e -> lower_type look [] t = Some t' -> at_var p (tx "w") = Some (BB w) -> vexpr nm -> ev_v items p nm = Some (g, v) ->
  typed E t' v = true -> (vdepth v <= d)%nat -> call_ok d -> evw p e = enc t' v w.

Lemma evw_w p w : at_var p (tx "w") = Some (BB w) -> evw p (xid "w") = w.
Proof. intros H. cbn [ev_w xid]. unfold xid. cbn [ev_w]. rewrite H. reflexivity. Qed.
Hypothesis Rex : extensional R.

(** The element closure [func(w []byte, v g) []byte { return e }]. *)
Lemma elem_ok t d e g t' p : enc_goal t -> simple t -> go_type t = Some g -> enc_x t (xid "v") = Some e -> lower_type look [] t = Some t' -> call_ok d ->
  forall v, typed E t' v = true -> (vdepth v <= d)%nat -> same_writer (fun w => evw ((tx "v", MV g v) :: (tx "w", BB w) :: p) e) (enc t' v).
Proof. intros IH Hs Hg He Hl Hc v Ht Hd w. eapply IH; try eassumption; try reflexivity. constructor. Qed.
Lemma elems_ok t d e g t' p l : enc_goal t -> simple t -> go_type t = Some g -> enc_x t (xid "v") = Some e -> lower_type look [] t = Some t' -> call_ok d ->
  forallb (typed E t') l = true -> (S (list_max (map vdepth l)) <= d)%nat ->
  Forall2 same_writer (map (fun v w => evw ((tx "v", MV g v) :: (tx "w", BB w) :: p) e) l) (map (enc t') l).
Proof.
  intros IH Hs Hg He Hl Hc Ht Hd. assert (K : Forall (fun v => typed E t' v = true /\ (vdepth v <= d)%nat) l).
  { rewrite Forall_forall. intros v Hv. rewrite forallb_forall in Ht. split; [auto|]. pose proof (depth_in l v Hv). lia. }
  clear Ht Hd. induction K as [|v l [Hv1 Hv2] _ IHl]; [constructor|]. cbn [map]. constructor; [|exact IHl]. eapply elem_ok; eassumption.
Qed.

Lemma w_fun p s x g rs body a : evw p (XCall (XFun s [(x, g)] rs body) [a]) = write_block items R bad call ((x, BB (evw p a)) :: p) body.
Proof. reflexivity. Qed.
Lemma nz_enc t v w : Go.go_inner t = t -> enc (TNonZero t) v w = enc t v w.
Proof.
  intros H. destruct t; try (destruct v; reflexivity). exfalso. cbn [Go.go_inner] in H. apply (f_equal (fix sz (t : ty) : nat := match t with TNonZero t => S (sz t) | _ => O end)) in H. cbv beta iota in H. lia.
Qed.
Lemma nz_typed t v : typed E (TNonZero t) v = true -> (match t with TNonZero _ | TGen _ => False | _ => True end) -> typed E t v = true.
Proof. intros H Ht. destruct v; destruct t; try contradiction; cbn [typed head_ok core] in *; apply andb_true_iff in H as [_ H]; exact H. Qed.
Lemma prim_enc p v w : enc (lower_prim p) v w = w ++ rt_write R (tx "Encode" ++ buf_name p) v.
Proof. destruct p, v; reflexivity. Qed.
Lemma get_ok p0 nm g n args v : ev_v items p0 nm = Some (mabo_nz n args, v) -> get_type (tx "NonZero" ++ n) args = Some g -> ev_v items p0 (xget nm) = Some (g, v).
Proof. intros H Hg. cbn [ev_v xget]. change (str_eqb (tx "Get") (tx "Get")) with true. cbv iota. unfold mabo_nz in H. rewrite H. change (str_eqb (tx "mabo") (tx "mabo")) with true. cbv iota. rewrite Hg. reflexivity. Qed.
Lemma nz_prim_get p0 n : nz_name p0 = Some n -> nz_encodable p0 = true -> get_type (tx "NonZero" ++ n) [] = Some (go_prim p0).
Proof. intros H He. destruct p0; try discriminate H; try discriminate He; apply some_inj in H; subst n; reflexivity. Qed.

Lemma index_nth : forall (l : list str) k, NoDup l -> forall x, nth_error l k = Some x -> index_of x l = Some k.
Proof.
  induction l as [|y l IH]; intros k Hn x Hx; [destruct k; discriminate|]. apply NoDup_cons_iff in Hn as [Hy Hn]. cbn [index_of]. destruct k as [|k]; cbn [nth_error] in Hx.
  - apply some_inj in Hx. subst y. destruct (str_eqb x x) eqn:E0; [reflexivity|]. assert (str_eqb x x = true) by (apply str_eqb_eq; reflexivity). congruence.
  - destruct (str_eqb y x) eqn:E0; [apply str_eqb_eq in E0; subst y; exfalso; apply Hy; eapply nth_error_In; exact Hx|]. rewrite (IH k Hn x Hx). reflexivity.
Qed.
Lemma tuple_fields_nodup k : NoDup (tuple_fields k).
Proof.
  unfold tuple_fields. apply Coq.Logic.FinFun.Injective_map_NoDup; [|apply seq_NoDup]. intros i j H. apply app_inv_head in H. apply (f_equal dec_value) in H. rewrite !ParserRound2.dec_value_str in H. lia.
Qed.
Lemma tuple_sel p0 nm k args vs i g v : length args = k -> ev_v items p0 nm = Some (GFrom (tx "mabo") (tx "Tuple" ++ dec_str (N.of_nat k)) args, VList vs) ->
  nth_error args i = Some g -> nth_error vs i = Some v -> ev_v items p0 (XSel nm (tx "F" ++ dec_str (N.of_nat i))) = Some (g, v).
Proof.
  intros Hk H Hg Hv. cbn [ev_v]. rewrite H. change (str_eqb (tx "mabo") (tx "mabo")) with true. rewrite Hk. rewrite (proj2 (str_eqb_eq (tx "Tuple" ++ dec_str (N.of_nat k)) _) eq_refl). cbv iota beta delta [andb].
  rewrite (index_nth (tuple_fields k) i (tuple_fields_nodup k)).
  - rewrite Hg, Hv. reflexivity.
  - unfold tuple_fields. rewrite nth_error_map. assert (i < k)%nat by (rewrite <- Hk; apply nth_error_Some; congruence).
    rewrite (nth_error_nth' (seq 0 k) 0%nat) by (rewrite seq_length; exact H0). rewrite seq_nth by exact H0. reflexivity.
Qed.
Lemma w_map p fn ts a nm s1 x1 h1 y1 g1 r1 e1 s2 x2 h2 y2 g2 r2 e2 g l : ev_v items p nm = Some (g, VMap l) ->
  evw p (XCallLines (XFrom (tx "buf") fn ts) [a; nm] [XFun s1 [(x1, h1); (y1, g1)] r1 [YRet [e1]]; XFun s2 [(x2, h2); (y2, g2)] r2 [YRet [e2]]]) =
  rt_write_map R fn (map (fun kv => (fun w => evw ((y1, MV g1 (fst kv)) :: (x1, BB w) :: p) e1, fun w => evw ((y2, MV g2 (snd kv)) :: (x2, BB w) :: p) e2)) l) (evw p a).
Proof. intros H. cbn [ev_w]. change (str_eqb (tx "buf") (tx "buf")) with true. cbv iota. rewrite H. reflexivity. Qed.
Lemma simple_all ts : (fix all (l : list sty) : Prop := match l with [] => True | t :: l' => simple t /\ all l' end) ts <-> Forall simple ts.
Proof. induction ts as [|t ts IH]; [split; constructor|]. rewrite Forall_cons_iff, <- IH. reflexivity. Qed.
Lemma tuple_run nm p k args vs d : length args = k -> vexpr nm -> (forall w, ev_v items ((tx "w", BB w) :: p) nm = Some (GFrom (tx "mabo") (tx "Tuple" ++ dec_str (N.of_nat k)) args, VList vs)) -> call_ok d ->
  forall ts i us gs l ts', Forall enc_goal ts -> Forall simple ts -> Forall2 (fun t g => go_type t = Some g) ts gs -> Forall2 (fun t t' => lower_type look [] t = Some t') ts ts' ->
  skipn i args = gs -> skipn i vs = us -> all2 (typed E) ts' us = true -> Forall (fun u => (vdepth u <= d)%nat) us ->
  collect ((fix go (i : N) (l : list sty) {struct l} : list (option gx) :=
             match l with [] => [] | t :: l' => option_map (YSet (xid "w")) (enc_x t (XSel nm (tx "F" ++ dec_str i))) :: go (i + 1) l' end) (N.of_nat i) ts) = Some l ->
  forall w, write_block items R bad call ((tx "w", BB w) :: p) (l ++ [YRet [xid "w"]]) = Go.go_tuple enc ts' us w.
Proof.
  intros Hk Hn Hnm Hc. induction ts as [|t ts IHts]; intros i us gs l ts' HI Hs HG HL Eg Eu Ht Hd Hl w.
  - inversion HL. subst ts'. apply some_inj in Hl. subst l. destruct us; [|discriminate Ht]. reflexivity.
  - destruct gs as [|g gs']; [inversion HG|]. destruct ts' as [|t' ts'']; [inversion HL|]. assert (Hg : go_type t = Some g) by (inversion HG; assumption). assert (HG' : Forall2 (fun t g => go_type t = Some g) ts gs') by (inversion HG; assumption). assert (Ht' : lower_type look [] t = Some t') by (inversion HL; assumption). assert (HL' : Forall2 (fun t t' => lower_type look [] t = Some t') ts ts'') by (inversion HL; assumption).
    destruct us as [|u us]; [discriminate Ht|].
    cbn [all2] in Ht. apply andb_true_iff in Ht as [Ht1 Ht2]. apply Forall_cons_iff in HI as [HI1 HI2]. apply Forall_cons_iff in Hs as [Hs1 Hs2]. apply Forall_cons_iff in Hd as [Hd1 Hd2].
    cbn [collect] in Hl. destruct (enc_x t (XSel nm (tx "F" ++ dec_str (N.of_nat i)))) as [e|] eqn:He; [|discriminate]. cbn [option_map] in Hl. apply omap_some in Hl as (l' & Hl & ->).
    assert (N1 : forall A (q : list A) x r, skipn i q = x :: r -> nth_error q i = Some x /\ skipn (S i) q = r).
    { clear. intros A q. revert i. induction q as [|y q IH]; intros [|i] x r H; try discriminate; [injection H as -> ->; split; reflexivity|]. cbn in *. apply IH, H. }
    destruct (N1 _ _ _ _ Eg) as [G1 G2]. destruct (N1 _ _ _ _ Eu) as [V1 V2].
    cbn [app write_block xid]. unfold xid. cbn [Go.go_tuple].
    assert (Ee : evw ((tx "w", BB w) :: p) e = enc t' u w).
    { eapply (HI1 d _ e g t'); try eassumption; [reflexivity|constructor; exact Hn|]. eapply tuple_sel; [exact Hk|apply Hnm|exact G1|exact V1]. }
    cbn [write_block]. rewrite Ee. cbn [assign_var]. change (str_eqb (tx "w") (tx "w")) with true. cbv iota.
    apply (IHts (S i) us gs'); try assumption. replace (N.of_nat (S i)) with (N.of_nat i + 1) by lia. exact Hl.
Qed.
Lemma enc_ok t : enc_goal t.
Proof.
  induction t as [pr|t IH|k v0 IHk IHv|t IH|t IH|t IH|ts IH|t n IH|path name ts IH] using LowerProofs.sty_ind2; intros d nm e g t' p w v Hs Hg He Hl Hw Hn Hv Ht Hd Hc.
  - cbn [enc_x go_type lower_type] in *. apply some_inj in He, Hl. subst e t'. unfold xbuf. erewrite w_prim by eassumption. rewrite (evw_w _ _ Hw). symmetry. apply prim_enc.
  - cbn [enc_x go_type lower_type simple] in *. destruct (go_type t) as [gt|] eqn:Eg; [|discriminate]. destruct (enc_x t (xid "v")) as [et|] eqn:Ee; [|discriminate]. destruct (lower_type look [] t) as [lt|] eqn:El; [|discriminate].
    apply some_inj in He, Hl, Hg. subst e t' g. unfold xbuf, efun. erewrite w_call by eassumption. rewrite (evw_w _ _ Hw). destruct v; try discriminate Ht. cbn [snd]. cbn [typed head_ok core andb] in Ht. cbn [vdepth] in Hd.
    cbn [Go.go_enc Go.go_inner]. apply (ex_seq R Rex). eapply elems_ok; eassumption.
  - cbn [enc_x go_type lower_type simple] in *. destruct (go_type k) as [gk|] eqn:Gk; [|discriminate]. destruct (go_type v0) as [gv|] eqn:Gv; [|discriminate].
    destruct (enc_x k (xid "k")) as [ek|] eqn:Ek; [|discriminate]. destruct (enc_x v0 (xid "v")) as [ev|] eqn:Ev; [|discriminate].
    destruct (lower_type look [] k) as [lk|] eqn:Lk; [|discriminate]. destruct (lower_type look [] v0) as [lv|] eqn:Lv; [|discriminate].
    apply some_inj in He, Hl, Hg. subst e t' g. destruct v; try discriminate Ht. unfold xbuf, efun. erewrite w_map by eassumption. rewrite (evw_w _ _ Hw).
    cbn [typed head_ok core andb] in Ht. apply andb_true_iff in Ht as [Ht _]. cbn [vdepth] in Hd. cbn [Go.go_enc Go.go_inner]. destruct Hs as [Hs1 Hs2]. apply (ex_map R Rex).
    assert (K : Forall (fun kv => typed E lk (fst kv) = true /\ typed E lv (snd kv) = true /\ (vdepth (fst kv) <= d)%nat /\ (vdepth (snd kv) <= d)%nat) l).
    { rewrite Forall_forall. intros kv Hkv. rewrite forallb_forall in Ht. specialize (Ht kv Hkv). cbv beta in Ht. apply andb_true_iff in Ht as [T1 T2].
      pose proof (max_in _ _ (in_map (fun kv => Nat.max (vdepth (fst kv)) (vdepth (snd kv))) l kv Hkv)). cbv beta in H. repeat split; try assumption; lia. }
    clear Ht Hd Hv. induction K as [|kv l (T1 & T2 & D1 & D2) _ IHl]; [constructor|]. cbn [map]. constructor; [|exact IHl]. cbn [fst snd]. split.
    + intros w'. eapply IHk; try eassumption; [reflexivity|constructor|reflexivity].
    + intros w'. eapply IHv; try eassumption; [reflexivity|constructor|reflexivity].
  - cbn [enc_x go_type lower_type simple] in *. destruct (go_type t) as [gt|] eqn:Eg; [|discriminate]. destruct (enc_x t (xid "v")) as [et|] eqn:Ee; [|discriminate]. destruct (lower_type look [] t) as [lt|] eqn:El; [|discriminate].
    apply some_inj in He, Hl, Hg. subst e t' g. unfold xbuf, efun. erewrite w_call by eassumption. rewrite (evw_w _ _ Hw). destruct v; try discriminate Ht. cbn [snd]. cbn [typed head_ok core andb] in Ht. cbn [vdepth] in Hd.
    apply andb_true_iff in Ht as [Ht _]. cbn [Go.go_enc Go.go_inner]. apply (ex_seq R Rex). eapply elems_ok; eassumption.
  - cbn [enc_x go_type lower_type simple] in *. destruct (go_type t) as [gt|] eqn:Eg; [|discriminate]. destruct (enc_x t (xid "v")) as [et|] eqn:Ee; [|discriminate]. destruct (lower_type look [] t) as [lt|] eqn:El; [|discriminate].
    apply some_inj in He, Hl, Hg. subst e t' g. unfold xbuf, efun. erewrite w_call by eassumption. rewrite (evw_w _ _ Hw). destruct v; try discriminate Ht; cbn [snd Go.go_enc Go.go_inner]; apply (ex_option R Rex); [exact I|].
    cbn [typed head_ok core andb] in Ht. cbn [vdepth] in Hd. cbn [same_opt]. eapply elem_ok; try eassumption. lia.
  - cbn [lower_type simple] in *. destruct (lower_type look [] t) as [lt|] eqn:El; [|discriminate]. apply some_inj in Hl. subst t'.
    pose proof He as Hz. destruct t as [pr|t|t1 t2|t|t|t|ts|t n|path name ts]; cbn [enc_x go_type] in He, Hg; try discriminate He; try discriminate Hg.
    + destruct (nz_encodable pr) eqn:Enz; [|discriminate]. apply omap_some in Hg as (n & Hg & ->). cbn [lower_type] in El. apply some_inj in El. subst lt.
      rewrite nz_enc by (destruct pr; reflexivity). eapply (IH d (xget nm) e (go_prim pr)); try eassumption; try reflexivity.
      * constructor. exact Hn.
      * eapply get_ok; [exact Hv|]. apply nz_prim_get; assumption.
      * apply nz_typed; [exact Ht|]. destruct pr; exact I.
    + apply omap_some in Hg as (gt & Hg & ->). assert (exists lt', lt = TVec lt') as (lt' & ->) by (cbn [lower_type] in El; destruct (lower_type look [] t); [|discriminate]; apply some_inj in El; eauto).
      rewrite nz_enc by reflexivity. eapply (IH d (xget nm) e (GSlice gt)); try eassumption; try reflexivity.
      * cbn [go_type]. rewrite Hg. reflexivity.
      * constructor. exact Hn.
      * eapply get_ok; [exact Hv|reflexivity].
      * apply nz_typed; [exact Ht|exact I].
    + destruct (go_type t1) as [g1|] eqn:G1; [|discriminate]. destruct (go_type t2) as [g2|] eqn:G2; [|discriminate]. apply some_inj in Hg. subst g.
      assert (exists a b, lt = TMap a b) as (a & b & ->) by (cbn [lower_type] in El; destruct (lower_type look [] t1), (lower_type look [] t2); try discriminate; apply some_inj in El; eauto).
      rewrite nz_enc by reflexivity. clear He. eapply (IH d (xget nm) e (GMap g1 g2)); [exact Hs| |exact Hz|exact El|exact Hw| | | |exact Hd|exact Hc].
      * cbn [go_type]. rewrite G1, G2. reflexivity.
      * constructor. exact Hn.
      * eapply get_ok; [exact Hv|reflexivity].
      * apply nz_typed; [exact Ht|exact I].
    + apply omap_some in Hg as (gt & Hg & ->). assert (exists lt', lt = TSet lt') as (lt' & ->) by (cbn [lower_type] in El; destruct (lower_type look [] t); [|discriminate]; apply some_inj in El; eauto).
      rewrite nz_enc by reflexivity. eapply (IH d (xget nm) e (GMap gt GEmpty)); try eassumption; try reflexivity.
      * cbn [go_type]. rewrite Hg. reflexivity.
      * constructor. exact Hn.
      * eapply get_ok; [exact Hv|reflexivity].
      * apply nz_typed; [exact Ht|exact I].
  - cbn [enc_x go_type lower_type simple] in *. destruct ((2 <=? length ts)%nat && (length ts <=? 12)%nat); [|discriminate]. apply omap_some in He as (l & He & ->). apply omap_some in Hg as (gs & Hg & ->). apply omap_some in Hl as (ts' & Hl & ->).
    apply collect_forall2 in Hg. apply LowerProofs.all_opt_forall2 in Hl. apply (simple_all ts) in Hs. destruct v; try discriminate Ht. rewrite w_fun, (evw_w _ _ Hw).
    cbn [typed head_ok core andb] in Ht. cbn [vdepth] in Hd. cbn [Go.go_enc Go.go_inner].
    pose proof (forall2_len _ _ _ Hg) as Hlen.
    apply (tuple_run nm p (length ts) gs l0 d (eq_sym Hlen) Hn) with (i := 0%nat) (ts := ts) (gs := gs); try assumption; try reflexivity.
    + intros w'. rewrite ev_v_push by exact Hn. exact Hv.
    + rewrite Forall_forall. intros u Hu. rewrite ?Forall_forall in IH. apply IH, Hu.
    + rewrite Forall_forall. intros u Hu. pose proof (depth_in l0 u Hu). lia.
  - cbn [enc_x go_type lower_type simple] in *. destruct ((1 <=? n) && (n <=? 32)); [|discriminate]. destruct (go_type t) as [gt|] eqn:Eg; [|discriminate]. destruct (enc_x t (xid "v")) as [et|] eqn:Ee; [|discriminate]. destruct (lower_type look [] t) as [lt|] eqn:El; [|discriminate].
    apply some_inj in He, Hl, Hg. subst e t' g. unfold xbuf, efun. erewrite w_call by eassumption. rewrite (evw_w _ _ Hw). destruct v; try discriminate Ht. cbn [snd]. cbn [typed head_ok core andb] in Ht. cbn [vdepth] in Hd.
    apply andb_true_iff in Ht as [_ Ht]. cbn [Go.go_enc Go.go_inner]. unfold buf_of, Go.gb_seq, seq_name. rewrite N2Nat.id. apply (ex_seq R Rex). eapply elems_ok; eassumption.
  - cbn [enc_x lower_type simple] in *. destruct Hs as (-> & -> & c & fs & Hin). cbn [go_type rev map collect option_map] in Hg. apply some_inj in He, Hg. subst e g. cbn [all_opt] in Hl. unfold lower_ref in Hl. cbn [position] in Hl.
    apply omap_some in Hl as (i & Hi & ->). cbn [ev_w]. change (str_eqb (tx "Encode") (tx "Encode")) with true. cbv iota. rewrite Hv.
    change (match at_var p (tx "w") with Some (BB b) => b | Some _ => bad | None => if str_eqb (tx "w") (tx "nil") then [] else bad end) with (evw p (xid "w")). rewrite (evw_w _ _ Hw). eapply Hc; eassumption.
Qed.

Lemma sel_ok p name decl vs i nm g v : struct_decl items name = Some decl -> NoDup (map fst decl) -> at_var p (tx "v") = Some (MV (GNamed name []) (VRec vs)) ->
  nth_error decl i = Some (nm, g) -> nth_error vs i = Some v -> ev_v items p (XSel (xid "v") nm) = Some (g, v).
Proof.
  intros Hd Hn Hv Hg Hu. unfold xid. cbn [ev_v]. rewrite Hv, Hd. rewrite (index_nth (map fst decl) i Hn) by (rewrite nth_error_map, Hg; reflexivity). rewrite Hg, Hu. reflexivity.
Qed.
Lemma w_field p fn id s x g rs e a : evw p (XCall (XFrom (tx "buf") fn []) [a; XNum id; XFun s [(x, g)] rs [YRet [e]]]) = rt_write_field R fn id (fun w => evw ((x, BB w) :: p) e) (evw p a).
Proof. cbn [ev_w]. change (str_eqb (tx "buf") (tx "buf")) with true. reflexivity. Qed.
Lemma w_field_option p fn ts id s x g1 y g rs e a b u : ev_v items p b = Some u ->
  evw p (XCall (XFrom (tx "buf") fn ts) [a; XNum id; XAddr b; XFun s [(x, g1); (y, g)] rs [YRet [e]]]) =
  match snd u with
  | VSome v => rt_write_field_option R fn id (Some (fun w => evw ((y, MV g v) :: (x, BB w) :: p) e)) (evw p a)
  | VNone => rt_write_field_option R fn id None (evw p a)
  | _ => bad
  end.
Proof. intros H. destruct u as [g0 u]. cbn [ev_w ev_v]. change (str_eqb (tx "buf") (tx "buf")) with true. cbv iota. rewrite H. destruct u; reflexivity. Qed.
Lemma skipn_cons {A} : forall i (q : list A) x r, skipn i q = x :: r -> nth_error q i = Some x /\ skipn (S i) q = r.
Proof. intros i q. revert i. induction q as [|y q IH]; intros [|i] x r H; try discriminate; [injection H as -> ->; split; reflexivity|]. cbn in *. apply IH, H. Qed.

(** One statement [w = buf.EncodeField..(w, id, ..)]. *)
Definition enc_one (f : field) (v : val) (w : list N) : list N :=
  match f_ty f with
  | TOption t => rt_write_field_option R (tx "EncodeFieldOption") (f_id f) (match v with VSome x => Some (enc t x) | _ => None end) w
  | t => rt_write_field R (tx "EncodeField") (f_id f) (enc t v) w
  end.
Lemma not_option t t' : lower_type look [] t = Some t' -> (forall u, t <> SOption u) -> forall u, t' <> TOption u.
Proof.
  intros H Hn u ->. destruct t as [pr|t|k v|t|t|t|ts|t n|path name ts]; cbn [lower_type] in H; try (apply omap_some in H as (? & _ & H); discriminate).
  - destruct pr; discriminate.
  - destruct (lower_type look [] k), (lower_type look [] v); discriminate.
  - eapply Hn; reflexivity.
  - destruct (all_opt _ ts); [|discriminate]. unfold lower_ref in H. destruct path; cbn [position] in H; apply omap_some in H as (? & _ & H); discriminate.
Qed.
Lemma field_run p w name decl vs i g v d f f' e : struct_decl items name = Some decl -> NoDup (map fst decl) -> at_var p (tx "v") = Some (MV (GNamed name []) (VRec vs)) -> at_var p (tx "w") = Some (BB w) ->
  nth_error decl i = Some (camel (sf_name f), g) -> nth_error vs i = Some v -> go_type (sf_ty f) = Some g -> lower_field look [] f = Some f' -> simple (sf_ty f) -> typed E (f_ty f') v = true -> (vdepth v <= d)%nat -> call_ok d ->
  enc_field f = Some e -> exists x, e = YSet (xid "w") x /\ evw p x = enc_one f' v w.
Proof.
  intros Hd Hn Hpv Hpw Hi Hvi Hg Hl Hs Ht Hdep Hc He. pose proof (sel_ok p name decl vs i _ g v Hd Hn Hpv Hi Hvi) as Hsel.
  unfold lower_field in Hl. apply omap_some in Hl as (t' & Hl & ->). cbn [f_ty f_id] in *. unfold enc_one. cbn [f_ty f_id].
  assert (D : (exists t, sf_ty f = SOption t) \/ (forall t, sf_ty f <> SOption t)) by (destruct (sf_ty f); solve [left; eauto | right; intros; discriminate]).
  destruct D as [(t & Ef)|D].
  - unfold enc_field in He. rewrite Ef in *. cbn [go_type lower_type simple] in *. destruct (go_type t) as [gt|] eqn:Eg; [|discriminate]. destruct (enc_x t (xid "v")) as [et|] eqn:Ee; [|discriminate]. destruct (lower_type look [] t) as [lt|] eqn:El; [|discriminate].
    apply some_inj in He, Hl, Hg. subst e t' g. eexists. split; [reflexivity|]. unfold xbuf. erewrite w_field_option by exact Hsel. rewrite (evw_w _ _ Hpw). destruct v; try discriminate Ht; cbn [snd].
    + apply (ex_field_option R Rex). exact I.
    + apply (ex_field_option R Rex). cbn [same_opt]. cbn [typed head_ok core andb] in Ht. cbn [vdepth] in Hdep. eapply elem_ok; try eassumption; [apply enc_ok|]. lia.
  - assert (He' : option_map (fun e => YSet (xid "w") (XCall (xbuf (tx "EncodeField") []) [xid "w"; XNum (sf_id f); XFun true [(tx "w", gbytes)] [gbytes] [YRet [e]]])) (enc_x (sf_ty f) (XSel (xid "v") (camel (sf_name f)))) = Some e)
      by (unfold enc_field in He; destruct (sf_ty f); try exact He; exfalso; eapply D; reflexivity).
    clear He. apply omap_some in He' as (x & Hx & ->). eexists. split; [reflexivity|]. unfold xbuf. rewrite w_field, (evw_w _ _ Hpw).
    pose proof (not_option _ _ Hl D) as D'. transitivity (rt_write_field R (tx "EncodeField") (sf_id f) (enc t' v) w); [|destruct t'; try reflexivity; exfalso; eapply D'; reflexivity].
    apply (ex_field R Rex). intros w'. eapply (enc_ok (sf_ty f) d (XSel (xid "v") (camel (sf_name f))) x g t'); [exact Hs|exact Hg|exact Hx|exact Hl|reflexivity| | |exact Ht|exact Hdep|exact Hc].
    + constructor. constructor.
    + rewrite ev_v_push by (constructor; constructor). exact Hsel.
Qed.
Notation at_start name w vs := [(tx "w", BB w); (tx "v", MV (GNamed name []) (VRec vs))].
Lemma fields_run name decl vs d rest : struct_decl items name = Some decl -> NoDup (map fst decl) -> call_ok d ->
  forall fl i us l fl' dl, skipn i vs = us -> skipn i decl = dl -> map fst dl = map (fun f => camel (sf_name f)) fl -> Forall2 (fun f e => go_type (sf_ty f) = Some (snd e)) fl dl ->
  Forall2 (fun f f' => lower_field look [] f = Some f') fl fl' -> Forall (fun f => simple (sf_ty f)) fl -> all2 (typed E) (map f_ty fl') us = true -> Forall (fun u => (vdepth u <= d)%nat) us ->
  collect (map enc_field fl) = Some l ->
  forall w, write_block items R bad call (at_start name w vs) (l ++ rest) = write_block items R bad call (at_start name (Go.go_fields (buf_of R) enc fl' us w) vs) rest.
Proof.
  intros Hd Hn Hc. induction fl as [|f fl IH]; intros i us l fl' dl Eu Ed Hnm Hg Hl Hs Ht Hdep He w.
  - inversion Hl; subst fl'. destruct us; [|discriminate Ht]. apply some_inj in He. subst l. reflexivity.
  - destruct dl as [|[nm g] dl]; [inversion Hg|]. destruct fl' as [|f' fl']; [inversion Hl|]. destruct us as [|u us]; [discriminate Ht|].
    assert (Hg1 : go_type (sf_ty f) = Some g) by (inversion Hg; assumption). assert (Hg2 : Forall2 (fun f e => go_type (sf_ty f) = Some (snd e)) fl dl) by (inversion Hg; assumption).
    assert (Hl1 : lower_field look [] f = Some f') by (inversion Hl; assumption). assert (Hl2 : Forall2 (fun f f' => lower_field look [] f = Some f') fl fl') by (inversion Hl; assumption).
    apply Forall_cons_iff in Hs as [Hs1 Hs2]. apply Forall_cons_iff in Hdep as [Hd1 Hd2]. cbn [map all2] in Ht. apply andb_true_iff in Ht as [Ht1 Ht2]. cbn [map fst] in Hnm. injection Hnm as -> Hnm.
    cbn [map collect] in He. destruct (enc_field f) as [e|] eqn:Ee; [|discriminate]. apply omap_some in He as (l' & He & ->).
    destruct (skipn_cons _ _ _ _ Eu) as [U1 U2]. destruct (skipn_cons _ _ _ _ Ed) as [D1 D2].
    destruct (field_run (at_start name w vs) w name decl vs i g u d f f' e Hd Hn eq_refl eq_refl D1 U1 Hg1 Hl1 Hs1 Ht1 Hd1 Hc Ee) as (x & -> & Hx).
    cbn [app]. unfold xid. cbn [write_block]. rewrite Hx. cbn [assign_var]. change (str_eqb (tx "w") (tx "w")) with true. cbv iota.
    rewrite (IH (S i) us l' fl' dl U2 D2 Hnm Hg2 Hl2 Hs2 Ht2 Hd2 He). reflexivity.
Qed.
Lemma decl_ok fs flds : go_fields fs = Some flds -> map fst (map snd flds) = map (fun f => camel (sf_name f)) (ss_fields fs) /\ Forall2 (fun f e => go_type (sf_ty f) = Some (snd e)) (ss_fields fs) (map snd flds).
Proof.
  unfold go_fields. intros H. apply collect_forall2 in H. induction H as [|f y l' l0 Hf _ [IH1 IH2]]; [split; constructor|]. apply omap_some in Hf as (t & Hf & ->). cbn [map snd fst]. split; [f_equal; exact IH1|]. constructor; assumption.
Qed.
(** The body of [Encode], up to its [return]. *)
Lemma body_run name fs fs' last vs d e : unit_at name fs last -> Forall (fun f => simple (sf_ty f)) (ss_fields fs) -> NoDup (map (fun f => camel (sf_name f)) (ss_fields fs)) ->
  lower_fields look [] fs = Some fs' -> all2 (typed E) (map f_ty (fs_list fs')) vs = true -> Forall (fun u => (vdepth u <= d)%nat) vs -> call_ok d -> enc_fields fs = Some e ->
  forall w rest, write_block items R bad call (at_start name w vs) (e ++ rest) = write_block items R bad call (at_start name (Go.go_body (buf_of R) enc fs' vs w) vs) rest.
Proof.
  intros HU Hs Hn Hl Ht Hd Hc He w rest. destruct (ua_fields _ _ _ HU) as (flds & Hf & Hdecl). destruct (decl_ok fs flds Hf) as [Dn Dg].
  unfold lower_fields in Hl. apply omap_some in Hl as (fl' & Hl & ->). apply LowerProofs.all_opt_forall2 in Hl. cbn [fs_list] in Ht. unfold Go.go_body. cbn [fs_kind fs_list].
  assert (HnD : NoDup (map fst (map snd flds))) by (rewrite Dn; exact Hn).
  unfold enc_fields in He. destruct (ss_kind fs) eqn:Ek; cbn [lower_kind].
  - apply omap_some in He as (l & He & ->). rewrite <- app_assoc.
    rewrite (fields_run name (map snd flds) vs d _ Hdecl HnD Hc (ss_fields fs) 0%nat vs l fl' (map snd flds) eq_refl eq_refl Dn Dg Hl Hs Ht Hd He w).
    cbn [app]. unfold xid, xbuf. cbn [write_block ev_w ev_arg]. reflexivity.
  - apply omap_some in He as (l & He & ->). rewrite <- app_assoc.
    rewrite (fields_run name (map snd flds) vs d _ Hdecl HnD Hc (ss_fields fs) 0%nat vs l fl' (map snd flds) eq_refl eq_refl Dn Dg Hl Hs Ht Hd He w).
    cbn [app]. unfold xid, xbuf. cbn [write_block ev_w ev_arg]. reflexivity.
  - apply some_inj in He. subst e. reflexivity.
Qed.
End Write.

(** * Encode of a struct, through the methods of the file *)
Section Run.
Hypothesis Rex : extensional R.
Hypothesis Hok : structs_ok.
Lemma run_encode_ok bad fuel : forall c n fs i u w, In (@SStruct F c n [] fs) ds -> look [] n = Some i -> typed E (TExt i []) u = true -> (vdepth u < fuel)%nat ->
  run_encode items R bad fuel (camel n) u w = Go.go_enc (buf_of R) E (TExt i []) u w.
Proof.
  induction fuel as [|fuel IH]; intros c n fs i u w Hin Hi Ht Hd; [lia|]. destruct (Hok c n fs Hin) as (HU & Hs & Hn & i' & fs' & Hi' & HE & Hl).
  assert (i' = i) by congruence. subst i'. destruct (ua_encode _ _ _ HU) as (e & He & Hm). cbn [run_encode]. rewrite Hm. 
  destruct u as [| | | | | | | |vs|]; try discriminate Ht; cbn [typed head_ok core andb] in Ht; rewrite HE in Ht; [|discriminate Ht].
  rewrite PropAmplify.inst_nil in Ht. cbn [vdepth] in Hd. unfold structs_ok in Hok.
  rewrite (body_run bad _ Rex (camel n) fs fs' (xid "w") vs (Nat.pred fuel) e HU Hs Hn Hl Ht); try assumption.
  - cbn [Go.go_enc Go.go_inner]. rewrite HE, PropAmplify.inst_nil. reflexivity.
  - rewrite Forall_forall. intros u Hu. pose proof (depth_in vs u Hu). lia.
  - intros c0 n0 fs0 i0 u0 w0 Hin0 Hi0 Ht0 Hd0. apply (IH c0 n0 fs0 i0 u0 w0 Hin0 Hi0 Ht0). 
    destruct fuel; [lia|]. cbn [Nat.pred] in Hd0. lia.
Qed.
End Run.

(** * Size *)
Fixpoint no_tuple (t : sty) : bool :=
  match t with
  | SPrim _ | SExternal _ _ _ => true
  | SVec t | SHashSet t | SOption t | SArray t _ | SNonZero t => no_tuple t
  | SHashMap k v => no_tuple k && no_tuple v
  | STuple _ => false
  end.
Section SizeProofs.
Variables (bad : nat) (call : gty -> val -> nat).
Notation evs := (ev_s items R bad call).
Notation sz := (GoSize.go_size (sizes_of R) E).
Definition scall_ok (d : nat) : Prop := forall c n fs i u, In (@SStruct F c n [] fs) ds -> look [] n = Some i -> typed E (TExt i []) u = true -> (vdepth u <= d)%nat ->
  call (GNamed (camel n) []) u = sz (TExt i []) u.
Definition size_goal (t : sty) : Prop := forall d nm e g t' p v,
  simple t -> no_tuple t = true -> go_type t = Some g -> size_x t nm = Some e -> lower_type look [] t = Some t' -> vexpr nm -> ev_v items p nm = Some (g, v) ->
  typed E t' v = true -> (vdepth v <= d)%nat -> scall_ok d -> evs p e = sz t' v.
Lemma s_prim p fn ts nm g v : vexpr nm -> ev_v items p nm = Some (g, v) -> evs p (XCall (XFrom (tx "buf") fn ts) [nm]) = rt_size R fn v.
Proof. intros Hv H. cbn [ev_s]. change (str_eqb (tx "buf") (tx "buf")) with true. cbv iota. rewrite H. destruct Hv; reflexivity. Qed.
Lemma s_call p fn ts nm s y g rs e u : vexpr nm -> ev_v items p nm = Some u ->
  evs p (XCall (XFrom (tx "buf") fn ts) [nm; XFun s [(y, g)] rs [YRet [e]]]) =
  match snd u with
  | VList l => rt_size_seq R fn (map (fun v => evs ((y, MV g v) :: p) e) l)
  | VSome v => rt_size_option R fn (Some (evs ((y, MV g v) :: p) e))
  | VNone => rt_size_option R fn None
  | _ => bad
  end.
Proof. intros Hv H. destruct u as [g0 u]. cbn [ev_s]. change (str_eqb (tx "buf") (tx "buf")) with true. cbv iota. destruct Hv; rewrite H; destruct u; reflexivity. Qed.
Lemma s_map p fn ts nm s1 y1 g1 r1 e1 s2 y2 g2 r2 e2 g l : ev_v items p nm = Some (g, VMap l) ->
  evs p (XCallLines (XFrom (tx "buf") fn ts) [nm] [XFun s1 [(y1, g1)] r1 [YRet [e1]]; XFun s2 [(y2, g2)] r2 [YRet [e2]]]) =
  rt_size_map R fn (map (fun kv => (evs ((y1, MV g1 (fst kv)) :: p) e1, evs ((y2, MV g2 (snd kv)) :: p) e2)) l).
Proof. intros H. cbn [ev_s]. change (str_eqb (tx "buf") (tx "buf")) with true. cbv iota. rewrite H. reflexivity. Qed.
Lemma selems_ok t d e g t' p l : size_goal t -> simple t -> no_tuple t = true -> go_type t = Some g -> size_x t (xid "v") = Some e -> lower_type look [] t = Some t' -> scall_ok d ->
  forallb (typed E t') l = true -> (S (list_max (map vdepth l)) <= d)%nat -> map (fun v => evs ((tx "v", MV g v) :: p) e) l = map (sz t') l.
Proof.
  intros IH Hs Hnt Hg He Hl Hc Ht Hd. apply map_ext_in. intros v Hv. rewrite forallb_forall in Ht. eapply IH; try eassumption; [constructor|reflexivity|auto|]. pose proof (depth_in l v Hv). lia.
Qed.
Lemma nz_size t v : Go.go_inner t = t -> sz (TNonZero t) v = sz t v.
Proof.
  intros H. destruct t; try (destruct v; reflexivity). exfalso. cbn [Go.go_inner] in H. apply (f_equal (fix sz (t : ty) : nat := match t with TNonZero t => S (sz t) | _ => O end)) in H. cbv beta iota in H. lia.
Qed.
Lemma prim_size p v : sz (lower_prim p) v = rt_size R (tx "Size" ++ buf_name p) v.
Proof. destruct p, v; reflexivity. Qed.
Lemma size_ok t : size_goal t.
Proof.
  induction t as [pr|t IH|k v0 IHk IHv|t IH|t IH|t IH|ts IH|t n IH|path name ts IH] using LowerProofs.sty_ind2; intros d nm e g t' p v Hs Hnt Hg He Hl Hn Hv Ht Hd Hc.
  - cbn [size_x go_type lower_type] in *. apply some_inj in He, Hl. subst e t'. unfold xbuf. erewrite s_prim by eassumption. symmetry. apply prim_size.
  - cbn [size_x go_type lower_type simple no_tuple] in *. destruct (go_type t) as [gt|] eqn:Eg; [|discriminate]. destruct (size_x t (xid "v")) as [et|] eqn:Ee; [|discriminate]. destruct (lower_type look [] t) as [lt|] eqn:El; [|discriminate].
    apply some_inj in He, Hl, Hg. subst e t' g. unfold xbuf, sfun. erewrite s_call by eassumption. destruct v; try discriminate Ht. cbn [snd]. cbn [typed head_ok core andb] in Ht. cbn [vdepth] in Hd.
    cbn [GoSize.go_size Go.go_inner]. unfold sizes_of at 1. cbn [GoSize.gz_seq]. f_equal. eapply selems_ok; eassumption.
  - cbn [size_x go_type lower_type simple no_tuple] in *. apply andb_true_iff in Hnt as [N1 N2]. destruct (go_type k) as [gk|] eqn:Gk; [|discriminate]. destruct (go_type v0) as [gv|] eqn:Gv; [|discriminate].
    destruct (size_x k (xid "k")) as [ek|] eqn:Ek; [|discriminate]. destruct (size_x v0 (xid "v")) as [ev|] eqn:Ev; [|discriminate].
    destruct (lower_type look [] k) as [lk|] eqn:Lk; [|discriminate]. destruct (lower_type look [] v0) as [lv|] eqn:Lv; [|discriminate].
    apply some_inj in He, Hl, Hg. subst e t' g. destruct v; try discriminate Ht. unfold xbuf, sfun. erewrite s_map by eassumption.
    cbn [typed head_ok core andb] in Ht. apply andb_true_iff in Ht as [Ht _]. cbn [vdepth] in Hd. cbn [GoSize.go_size Go.go_inner]. destruct Hs as [Hs1 Hs2]. unfold sizes_of at 1. cbn [GoSize.gz_map]. f_equal.
    apply map_ext_in. intros kv Hkv. rewrite forallb_forall in Ht. specialize (Ht kv Hkv). cbv beta in Ht. apply andb_true_iff in Ht as [T1 T2].
    pose proof (max_in _ _ (in_map (fun kv => Nat.max (vdepth (fst kv)) (vdepth (snd kv))) l kv Hkv)) as M. cbv beta in M. f_equal.
    + eapply (IHk d); try eassumption; [constructor|reflexivity|lia].
    + eapply (IHv d); try eassumption; [constructor|reflexivity|lia].
  - cbn [size_x go_type lower_type simple no_tuple] in *. destruct (go_type t) as [gt|] eqn:Eg; [|discriminate]. destruct (size_x t (xid "v")) as [et|] eqn:Ee; [|discriminate]. destruct (lower_type look [] t) as [lt|] eqn:El; [|discriminate].
    apply some_inj in He, Hl, Hg. subst e t' g. unfold xbuf, sfun. erewrite s_call by eassumption. destruct v; try discriminate Ht. cbn [snd]. cbn [typed head_ok core andb] in Ht. cbn [vdepth] in Hd.
    apply andb_true_iff in Ht as [Ht _]. cbn [GoSize.go_size Go.go_inner]. unfold sizes_of at 1. cbn [GoSize.gz_seq]. f_equal. eapply selems_ok; eassumption.
  - cbn [size_x go_type lower_type simple no_tuple] in *. destruct (go_type t) as [gt|] eqn:Eg; [|discriminate]. destruct (size_x t (xid "v")) as [et|] eqn:Ee; [|discriminate]. destruct (lower_type look [] t) as [lt|] eqn:El; [|discriminate].
    apply some_inj in He, Hl, Hg. subst e t' g. unfold xbuf, sfun. erewrite s_call by eassumption. destruct v; try discriminate Ht; cbn [snd GoSize.go_size Go.go_inner]; unfold sizes_of at 1; cbn [GoSize.gz_option]; f_equal. f_equal.
    cbn [typed head_ok core andb] in Ht. cbn [vdepth] in Hd. eapply (IH d); try eassumption; [constructor|reflexivity|lia].
  - cbn [lower_type simple no_tuple] in *. destruct (lower_type look [] t) as [lt|] eqn:El; [|discriminate]. apply some_inj in Hl. subst t'.
    pose proof He as Hz. destruct t as [pr|t|t1 t2|t|t|t|ts|t n|path name ts]; cbn [size_x go_type] in He, Hg; try discriminate He; try discriminate Hg.
    + destruct (nz_encodable pr) eqn:Enz; [|discriminate]. apply omap_some in Hg as (n & Hg & ->). cbn [lower_type] in El. apply some_inj in El. subst lt.
      rewrite nz_size by (destruct pr; reflexivity). eapply (IH d (xget nm) e (go_prim pr)); try eassumption; try reflexivity.
      * constructor. exact Hn.
      * eapply get_ok; [exact Hv|]. apply nz_prim_get; assumption.
      * apply nz_typed; [exact Ht|]. destruct pr; exact I.
    + apply omap_some in Hg as (gt & Hg & ->). assert (exists lt', lt = TVec lt') as (lt' & ->) by (cbn [lower_type] in El; destruct (lower_type look [] t); [|discriminate]; apply some_inj in El; eauto).
      rewrite nz_size by reflexivity. eapply (IH d (xget nm) e (GSlice gt)); try eassumption; try reflexivity.
      * cbn [go_type]. rewrite Hg. reflexivity.
      * constructor. exact Hn.
      * eapply get_ok; [exact Hv|reflexivity].
      * apply nz_typed; [exact Ht|exact I].
    + destruct (go_type t1) as [g1|] eqn:G1; [|discriminate]. destruct (go_type t2) as [g2|] eqn:G2; [|discriminate]. apply some_inj in Hg. subst g.
      assert (exists a b, lt = TMap a b) as (a & b & ->) by (cbn [lower_type] in El; destruct (lower_type look [] t1), (lower_type look [] t2); try discriminate; apply some_inj in El; eauto).
      rewrite nz_size by reflexivity. clear He. eapply (IH d (xget nm) e (GMap g1 g2)); [exact Hs|exact Hnt| |exact Hz|exact El| | | |exact Hd|exact Hc].
      * cbn [go_type]. rewrite G1, G2. reflexivity.
      * constructor. exact Hn.
      * eapply get_ok; [exact Hv|reflexivity].
      * apply nz_typed; [exact Ht|exact I].
    + apply omap_some in Hg as (gt & Hg & ->). assert (exists lt', lt = TSet lt') as (lt' & ->) by (cbn [lower_type] in El; destruct (lower_type look [] t); [|discriminate]; apply some_inj in El; eauto).
      rewrite nz_size by reflexivity. eapply (IH d (xget nm) e (GMap gt GEmpty)); try eassumption; try reflexivity.
      * cbn [go_type]. rewrite Hg. reflexivity.
      * constructor. exact Hn.
      * eapply get_ok; [exact Hv|reflexivity].
      * apply nz_typed; [exact Ht|exact I].
  - discriminate Hnt.
  - cbn [size_x go_type lower_type simple no_tuple] in *. destruct ((1 <=? n) && (n <=? 32)); [|discriminate]. destruct (go_type t) as [gt|] eqn:Eg; [|discriminate]. destruct (size_x t (xid "v")) as [et|] eqn:Ee; [|discriminate]. destruct (lower_type look [] t) as [lt|] eqn:El; [|discriminate].
    apply some_inj in He, Hl, Hg. subst e t' g. unfold xbuf, sfun. erewrite s_call by eassumption. destruct v; try discriminate Ht. cbn [snd]. cbn [typed head_ok core andb] in Ht. cbn [vdepth] in Hd.
    apply andb_true_iff in Ht as [_ Ht]. cbn [GoSize.go_size Go.go_inner]. unfold sizes_of at 1. cbn [GoSize.gz_seq]. unfold seq_name. rewrite N2Nat.id. f_equal. eapply selems_ok; eassumption.
  - cbn [size_x lower_type simple] in *. destruct Hs as (-> & -> & c & fs & Hin). cbn [go_type rev map collect option_map] in Hg. apply some_inj in He, Hg. subst e g. cbn [all_opt] in Hl. unfold lower_ref in Hl. cbn [position] in Hl.
    apply omap_some in Hl as (i & Hi & ->). cbn [ev_s]. change (str_eqb (tx "Size") (tx "Size")) with true. cbv iota. rewrite Hv. eapply Hc; eassumption.
Qed.

Definition size_one (f : field) (v : val) : nat :=
  match f_ty f with
  | TOption t => rt_size_field_option R (tx "SizeFieldOption") (f_id f) (match v with VSome x => Some (sz t x) | _ => None end)
  | t => rt_size_field R (tx "SizeField") (f_id f) (sz t v)
  end.
Lemma s_field p fn id s rs e : evs p (XCall (XFrom (tx "buf") fn []) [XNum id; XFun s [] rs [YRet [e]]]) = rt_size_field R fn id (evs p e).
Proof. cbn [ev_s]. change (str_eqb (tx "buf") (tx "buf")) with true. reflexivity. Qed.
Lemma s_field_option p fn ts id s y g rs e b u : ev_v items p b = Some u ->
  evs p (XCall (XFrom (tx "buf") fn ts) [XNum id; XAddr b; XFun s [(y, g)] rs [YRet [e]]]) =
  match snd u with
  | VSome v => rt_size_field_option R fn id (Some (evs ((y, MV g v) :: p) e))
  | VNone => rt_size_field_option R fn id None
  | _ => bad
  end.
Proof. intros H. destruct u as [g0 u]. cbn [ev_s ev_v]. change (str_eqb (tx "buf") (tx "buf")) with true. cbv iota. rewrite H. destruct u; reflexivity. Qed.
Lemma sfield_run p name decl vs i g v d f f' e : struct_decl items name = Some decl -> NoDup (map fst decl) -> at_var p (tx "v") = Some (MV (GNamed name []) (VRec vs)) ->
  nth_error decl i = Some (camel (sf_name f), g) -> nth_error vs i = Some v -> go_type (sf_ty f) = Some g -> lower_field look [] f = Some f' -> simple (sf_ty f) -> no_tuple (sf_ty f) = true -> typed E (f_ty f') v = true -> (vdepth v <= d)%nat -> scall_ok d ->
  size_field f = Some e -> exists x, e = YAdd (xid "size") x /\ evs p x = size_one f' v.
Proof.
  intros Hd Hn Hpv Hi Hvi Hg Hl Hs Hnt Ht Hdep Hc He. pose proof (sel_ok p name decl vs i _ g v Hd Hn Hpv Hi Hvi) as Hsel.
  unfold lower_field in Hl. apply omap_some in Hl as (t' & Hl & ->). cbn [f_ty f_id] in *. unfold size_one. cbn [f_ty f_id].
  assert (D : (exists t, sf_ty f = SOption t) \/ (forall t, sf_ty f <> SOption t)) by (destruct (sf_ty f); solve [left; eauto | right; intros; discriminate]).
  destruct D as [(t & Ef)|D].
  - unfold size_field in He. rewrite Ef in *. cbn [go_type lower_type simple no_tuple] in *. destruct (go_type t) as [gt|] eqn:Eg; [|discriminate]. destruct (size_x t (xid "v")) as [et|] eqn:Ee; [|discriminate]. destruct (lower_type look [] t) as [lt|] eqn:El; [|discriminate].
    apply some_inj in He, Hl, Hg. subst e t' g. eexists. split; [reflexivity|]. unfold xbuf. erewrite s_field_option by exact Hsel. destruct v; try discriminate Ht; cbn [snd]; [reflexivity|]. f_equal. f_equal.
    cbn [typed head_ok core andb] in Ht. cbn [vdepth] in Hdep. eapply (size_ok t d); try eassumption; [constructor|reflexivity|lia].
  - assert (He' : option_map (fun e => YAdd (xid "size") (XCall (xbuf (tx "SizeField") []) [XNum (sf_id f); XFun false [] [gname "int"] [YRet [e]]])) (size_x (sf_ty f) (XSel (xid "v") (camel (sf_name f)))) = Some e)
      by (unfold size_field in He; destruct (sf_ty f); try exact He; exfalso; eapply D; reflexivity).
    clear He. apply omap_some in He' as (x & Hx & ->). eexists. split; [reflexivity|]. unfold xbuf. rewrite s_field.
    pose proof (not_option _ _ Hl D) as D'. transitivity (rt_size_field R (tx "SizeField") (sf_id f) (sz t' v)); [|destruct t'; try reflexivity; exfalso; eapply D'; reflexivity].
    f_equal. eapply (size_ok (sf_ty f) d (XSel (xid "v") (camel (sf_name f))) x g t'); try assumption. constructor. constructor.
Qed.
Notation at_size name k vs := [(tx "size", II k); (tx "v", MV (GNamed name []) (VRec vs))].
Lemma sfields_run name decl vs d rest : struct_decl items name = Some decl -> NoDup (map fst decl) -> scall_ok d ->
  forall fl i us l fl' dl, skipn i vs = us -> skipn i decl = dl -> map fst dl = map (fun f => camel (sf_name f)) fl -> Forall2 (fun f e => go_type (sf_ty f) = Some (snd e)) fl dl ->
  Forall2 (fun f f' => lower_field look [] f = Some f') fl fl' -> Forall (fun f => simple (sf_ty f)) fl -> Forall (fun f => no_tuple (sf_ty f) = true) fl -> all2 (typed E) (map f_ty fl') us = true -> Forall (fun u => (vdepth u <= d)%nat) us ->
  collect (map size_field fl) = Some l ->
  forall k, size_block items R bad call (at_size name k vs) (l ++ rest) = size_block items R bad call (at_size name (GoSize.gz_fields (sizes_of R) sz fl' us k) vs) rest.
Proof.
  intros Hd Hn Hc. induction fl as [|f fl IH]; intros i us l fl' dl Eu Ed Hnm Hg Hl Hs Hnt Ht Hdep He k.
  - inversion Hl; subst fl'. destruct us; [|discriminate Ht]. apply some_inj in He. subst l. reflexivity.
  - destruct dl as [|[nm g] dl]; [inversion Hg|]. destruct fl' as [|f' fl']; [inversion Hl|]. destruct us as [|u us]; [discriminate Ht|].
    assert (Hg1 : go_type (sf_ty f) = Some g) by (inversion Hg; assumption). assert (Hg2 : Forall2 (fun f e => go_type (sf_ty f) = Some (snd e)) fl dl) by (inversion Hg; assumption).
    assert (Hl1 : lower_field look [] f = Some f') by (inversion Hl; assumption). assert (Hl2 : Forall2 (fun f f' => lower_field look [] f = Some f') fl fl') by (inversion Hl; assumption).
    apply Forall_cons_iff in Hs as [Hs1 Hs2]. apply Forall_cons_iff in Hnt as [Hnt1 Hnt2]. apply Forall_cons_iff in Hdep as [Hd1 Hd2]. cbn [map all2] in Ht. apply andb_true_iff in Ht as [Ht1 Ht2]. cbn [map fst] in Hnm. injection Hnm as -> Hnm.
    cbn [map collect] in He. destruct (size_field f) as [e|] eqn:Ee; [|discriminate]. apply omap_some in He as (l' & He & ->).
    destruct (skipn_cons _ _ _ _ Eu) as [U1 U2]. destruct (skipn_cons _ _ _ _ Ed) as [D1 D2].
    destruct (sfield_run (at_size name k vs) name decl vs i g u d f f' e Hd Hn eq_refl D1 U1 Hg1 Hl1 Hs1 Hnt1 Ht1 Hd1 Hc Ee) as (x & -> & Hx).
    cbn [app]. unfold xid. cbn [size_block at_var]. change (str_eqb (tx "size") (tx "size")) with true. cbv iota. rewrite Hx. cbn [assign_var]. change (str_eqb (tx "size") (tx "size")) with true. cbv iota.
    rewrite (IH (S i) us l' fl' dl U2 D2 Hnm Hg2 Hl2 Hs2 Hnt2 Ht2 Hd2 He). reflexivity.
Qed.
Lemma sbody_run name fs fs' last vs d e : unit_at name fs last -> Forall (fun f => simple (sf_ty f)) (ss_fields fs) -> Forall (fun f => no_tuple (sf_ty f) = true) (ss_fields fs) -> NoDup (map (fun f => camel (sf_name f)) (ss_fields fs)) ->
  lower_fields look [] fs = Some fs' -> all2 (typed E) (map f_ty (fs_list fs')) vs = true -> Forall (fun u => (vdepth u <= d)%nat) vs -> scall_ok d -> size_fields fs = Some e ->
  size_block items R bad call [(tx "v", MV (GNamed name []) (VRec vs))] (YDef [tx "size"] (XNum 0) :: e ++ [YRet [xid "size"]]) = GoSize.gz_body (sizes_of R) sz fs' vs.
Proof.
  intros HU Hs Hnt Hn Hl Ht Hd Hc He. destruct (ua_fields _ _ _ HU) as (flds & Hf & Hdecl). destruct (decl_ok fs flds Hf) as [Dn Dg].
  unfold lower_fields in Hl. apply omap_some in Hl as (fl' & Hl & ->). apply LowerProofs.all_opt_forall2 in Hl. cbn [fs_list] in Ht. unfold GoSize.gz_body. cbn [fs_kind fs_list].
  assert (HnD : NoDup (map fst (map snd flds))) by (rewrite Dn; exact Hn). cbn [size_block]. change (N.to_nat 0) with 0%nat.
  unfold size_fields in He. destruct (ss_kind fs) eqn:Ek; cbn [lower_kind].
  - apply omap_some in He as (l & He & ->). rewrite <- app_assoc.
    rewrite (sfields_run name (map snd flds) vs d _ Hdecl HnD Hc (ss_fields fs) 0%nat vs l fl' (map snd flds) eq_refl eq_refl Dn Dg Hl Hs Hnt Ht Hd He 0%nat). reflexivity.
  - apply omap_some in He as (l & He & ->). rewrite <- app_assoc.
    rewrite (sfields_run name (map snd flds) vs d _ Hdecl HnD Hc (ss_fields fs) 0%nat vs l fl' (map snd flds) eq_refl eq_refl Dn Dg Hl Hs Hnt Ht Hd He 0%nat). reflexivity.
  - apply some_inj in He. subst e. reflexivity.
Qed.
End SizeProofs.
Definition tuple_free : Prop := forall c n fs, In (@SStruct F c n [] fs) ds -> Forall (fun f => no_tuple (sf_ty f) = true) (ss_fields fs).
Lemma run_size_ok (Hok : structs_ok) (Hfree : tuple_free) bad fuel : forall c n fs i u, In (@SStruct F c n [] fs) ds -> look [] n = Some i -> typed E (TExt i []) u = true -> (vdepth u < fuel)%nat ->
  run_size items R bad fuel (camel n) u = GoSize.go_size (sizes_of R) E (TExt i []) u.
Proof.
  induction fuel as [|fuel IH]; intros c n fs i u Hin Hi Ht Hd; [lia|]. destruct (Hok c n fs Hin) as (HU & Hs & Hn & i' & fs' & Hi' & HE & Hl).
  assert (i' = i) by congruence. subst i'. destruct (ua_size _ _ _ HU) as (e & He & Hm). cbn [run_size]. rewrite Hm.
  destruct u as [| | | | | | | |vs|]; try discriminate Ht; cbn [typed head_ok core andb] in Ht; rewrite HE in Ht; [|discriminate Ht].
  rewrite PropAmplify.inst_nil in Ht. cbn [vdepth] in Hd.
  rewrite (sbody_run bad _ (camel n) fs fs' (xid "w") vs (Nat.pred fuel) e HU Hs (Hfree c n fs Hin) Hn Hl Ht); try assumption.
  - cbn [GoSize.go_size Go.go_inner]. rewrite HE, PropAmplify.inst_nil. reflexivity.
  - rewrite Forall_forall. intros u Hu. pose proof (depth_in vs u Hu). lia.
  - intros c0 n0 fs0 i0 u0 Hin0 Hi0 Ht0 Hd0. apply (IH c0 n0 fs0 i0 u0 Hin0 Hi0 Ht0).
    destruct fuel; [lia|]. cbn [Nat.pred] in Hd0. lia.
Qed.
End Proofs.
