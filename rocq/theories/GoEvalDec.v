(** [Decode] of the generated Go file is what [Go] says. *)
From Verif Require Import Base Varint Wire Codec CodecSpec Syntax Parser Printer Compiler Lower GoNames GoFile GoEval GoEvalProofs.
From Verif Require Import GoClosedProofs.
From Coq Require FinFun.
From Verif Require Go GoSize LowerProofs ParserRound2 PropAmplify.
Require Coq.Strings.String.
Import Coq.Strings.String.StringSyntax.
Local Open Scope N_scope.

(** * Scopes *)
Lemma str_refl s : str_eqb s s = true.
Proof. apply str_eqb_eq. reflexivity. Qed.
Lemma str_ne x y : x <> y -> str_eqb x y = false.
Proof. intros H. destruct (str_eqb x y) eqn:E; [apply str_eqb_eq in E; contradiction|reflexivity]. Qed.
Lemma at_app q p x : ~ In x (map fst q) -> at_var (q ++ p) x = at_var p x.
Proof. induction q as [|[y u] q IH]; intros H; [reflexivity|]. cbn [app at_var]. rewrite str_ne by (intros ->; apply H; left; reflexivity). apply IH. intros K. apply H. right. exact K. Qed.
Lemma at_in q p x v : NoDup (map fst q) -> In (x, v) q -> at_var (q ++ p) x = Some v.
Proof.
  induction q as [|[y u] q IH]; intros Hn H; [destruct H|]. cbn [map fst] in Hn. apply NoDup_cons_iff in Hn as [Hy Hn]. cbn [app at_var]. destruct H as [H|H].
  - injection H as -> ->. rewrite str_refl. reflexivity.
  - rewrite str_ne; [apply IH; assumption|]. intros ->. apply Hy. apply (in_map fst) in H. exact H.
Qed.
Lemma assign_len p x v : length (assign_var p x v) = length p.
Proof. induction p as [|[y u] p IH]; [reflexivity|]. cbn [assign_var]. destruct (str_eqb y x); cbn [length]; congruence. Qed.
Lemma assign_app q p x v : ~ In x (map fst q) -> assign_var (q ++ p) x v = q ++ assign_var p x v.
Proof. induction q as [|[y u] q IH]; intros H; [reflexivity|]. cbn [app assign_var]. rewrite str_ne by (intros ->; apply H; left; reflexivity). rewrite IH; [reflexivity|]. intros K. apply H. right. exact K. Qed.
Definition upd (x : str) (v : gv) (e : str * gv) : str * gv := if str_eqb (fst e) x then (fst e, v) else e.
Lemma upd_id x v q : ~ In x (map fst q) -> map (upd x v) q = q.
Proof. induction q as [|[y u] q IH]; intros H; [reflexivity|]. cbn [map]. unfold upd at 1. cbn [fst]. rewrite str_ne by (intros ->; apply H; left; reflexivity). rewrite IH; [reflexivity|]. intros K. apply H. right. exact K. Qed.
Lemma assign_in q p x v : NoDup (map fst q) -> In x (map fst q) -> assign_var (q ++ p) x v = map (upd x v) q ++ p.
Proof.
  induction q as [|[y u] q IH]; intros Hn H; [destruct H|]. cbn [map fst] in Hn. apply NoDup_cons_iff in Hn as [Hy Hn]. cbn [app assign_var map]. unfold upd at 1. cbn [fst]. destruct (str_eqb y x) eqn:E0.
  - apply str_eqb_eq in E0. subst y. rewrite upd_id by exact Hy. reflexivity.
  - cbn [app]. f_equal. apply IH; [exact Hn|]. destruct H as [H|H]; [|exact H]. cbn [fst] in H. subst y. rewrite str_refl in E0. discriminate.
Qed.

Lemma forall2_nth {A B} (P : A -> B -> Prop) l l' k x y : Forall2 P l l' -> nth_error l k = Some x -> nth_error l' k = Some y -> P x y.
Proof. intros H. revert k. induction H as [|a b l l' H _ IH]; intros [|k] H1 H2; try discriminate; [apply some_inj in H1, H2; subst; exact H|eapply IH; eassumption]. Qed.

(** The flags [foundX]. *)
Definition flags (names : list str) (bs : list bool) : scope := rev (combine names (map BL bs)).
Lemma combine_fst {A B} : forall (l : list A) (r : list B), length l = length r -> map fst (combine l r) = l.
Proof. induction l as [|x l IH]; intros [|y r] H; try discriminate; [reflexivity|]. cbn. rewrite IH by (injection H; auto). reflexivity. Qed.
Lemma flags_fst names bs : length names = length bs -> map fst (flags names bs) = rev names.
Proof. intros H. unfold flags. rewrite map_rev, combine_fst by (rewrite map_length; exact H). reflexivity. Qed.
Lemma nodup_rev {A} (l : list A) : NoDup l -> NoDup (rev l).
Proof. intros H. apply NoDup_rev. exact H. Qed.
Lemma flags_at names bs p k x b : length names = length bs -> NoDup names -> nth_error names k = Some x -> nth_error bs k = Some b -> at_var (flags names bs ++ p) x = Some (BL b).
Proof.
  intros Hl Hn Hx Hb. apply at_in; [rewrite flags_fst by exact Hl; apply nodup_rev, Hn|]. unfold flags. rewrite <- in_rev. clear Hl Hn. revert bs k Hx Hb.
  induction names as [|y names IH]; intros bs [|k] Hx Hb; try discriminate; destruct bs as [|c bs]; try discriminate; cbn in *.
  - apply some_inj in Hx, Hb. subst. left. reflexivity.
  - right. eapply IH; eassumption.
Qed.
Lemma flags_set names bs p k x : length names = length bs -> NoDup names -> nth_error names k = Some x -> assign_var (flags names bs ++ p) x (BL true) = flags names (set_nth k true bs) ++ p.
Proof.
  intros Hl Hn Hx. rewrite assign_in; [|rewrite flags_fst by exact Hl; apply nodup_rev, Hn|rewrite flags_fst by exact Hl; rewrite <- in_rev; eapply nth_error_In; exact Hx].
  f_equal. unfold flags. rewrite map_rev. f_equal. revert bs k Hl Hx. induction names as [|y names IH]; intros bs k Hl Hx; [destruct k; discriminate|]. destruct bs as [|c bs]; [discriminate|]. apply NoDup_cons_iff in Hn as [Hy Hn].
  destruct k as [|k]; cbn [nth_error set_nth map combine] in *.
  - apply some_inj in Hx. subst y. unfold upd at 1. cbn [fst]. rewrite str_refl. f_equal. apply upd_id. rewrite combine_fst; [exact Hy|]. rewrite map_length. injection Hl; auto.
  - unfold upd at 1. cbn [fst]. rewrite str_ne; [|intros ->; apply Hy; eapply nth_error_In; exact Hx]. f_equal. apply IH; [exact Hn|injection Hl; auto|exact Hx].
Qed.

(** Flags and fields of the receiver against the variables of [Go.go_loop]. *)
Inductive rel : slots -> list bool -> list val -> Prop :=
| rel_nil : rel [] [] []
| rel_some v s bs vs : rel s bs vs -> rel (Some v :: s) (true :: bs) (v :: vs)
| rel_none u s bs vs : rel s bs vs -> rel (None :: s) (false :: bs) (u :: vs).
Lemma rel_len s bs vs : rel s bs vs -> length bs = length s /\ length vs = length s.
Proof. induction 1 as [|? ? ? ? _ [IH1 IH2]|? ? ? ? _ [IH1 IH2]]; cbn [length]; split; congruence. Qed.
Lemma rel_set s bs vs k v : rel s bs vs -> rel (set_slot k v s) (set_nth k true bs) (set_nth k v vs).
Proof. intros H. revert k. induction H as [|u s bs vs H IH|u s bs vs H IH]; intros [|k]; cbn [set_slot set_nth]; constructor; auto. Qed.
Lemma rel_start {A B} (l : list A) (vs : list B) (f : B -> val) : length l = length vs -> rel (map (fun _ => None) l) (map (fun _ => false) l) (map f vs).
Proof. revert vs. induction l as [|x l IH]; intros [|v vs] H; try discriminate; cbn [map]; constructor. apply IH. injection H; auto. Qed.

Section Dec.
Context {F : Type}.
Variables (items : list (gitem F)) (R : runtime) (ds : list (sdef F)) (look : list str -> str -> option nat) (E : env).
Hypothesis Rex : extensional R.

Section Read.
Variables (call : gty -> dec val) (ext : nat -> list ty -> dec val).
Definition dcall_ok : Prop := forall c n fs i r, In (@SStruct F c n [] fs) ds -> look [] n = Some i -> call (GNamed (camel n) []) r = ext i [] r.
Hypothesis Hcall : dcall_ok.
Notation evd := (ev_d R call).
Notation gdec := (Go.go_dec_ty (buf_of R) ext).

Lemma d_prim p fn ts r : at_var p (tx "r") = Some (BB r) -> evd p (XCall (XFrom (tx "buf") fn ts) [xid "r"]) = rt_read R fn r.
Proof. intros H. unfold xid. cbn [ev_d]. unfold var_bytes. rewrite H. reflexivity. Qed.
Lemma d_seq p fn g e r : at_var p (tx "r") = Some (BB r) -> str_eqb fn (tx "DecodeOption") = false ->
  evd p (dcall fn g e) = dmap VList (rt_read_seq R fn (fun r => evd ((tx "r", BB r) :: p) e)) r.
Proof. intros H Hf. unfold dcall, dfun, xbuf, xid. cbn [ev_d]. unfold var_bytes. rewrite H, Hf. reflexivity. Qed.
Lemma d_option p g e r : at_var p (tx "r") = Some (BB r) -> evd p (dcall (tx "DecodeOption") g e) = dmap Go.of_option (rt_read_option R (tx "DecodeOption") (fun r => evd ((tx "r", BB r) :: p) e)) r.
Proof. intros H. unfold dcall, dfun, xbuf, xid. cbn [ev_d]. unfold var_bytes. rewrite H. reflexivity. Qed.
Lemma d_map p fn k v ek ev r : at_var p (tx "r") = Some (BB r) -> evd p (dcall2 fn k v ek ev) = dmap VMap (rt_read_map R fn (fun r => evd ((tx "r", BB r) :: p) ek) (fun r => evd ((tx "r", BB r) :: p) ev)) r.
Proof. intros H. unfold dcall2, dfun, xbuf, xid. cbn [ev_d]. unfold var_bytes. rewrite H. reflexivity. Qed.
Definition dec_goal (t : sty) : Prop := forall e t' p r, simple ds t -> no_tuple t = true -> dec_x t = Some e -> lower_type look [] t = Some t' -> at_var p (tx "r") = Some (BB r) -> evd p e = gdec t' r.
Lemma dmap_eq {A B} (f : A -> B) (d d' : dec A) r : d r = d' r -> dmap f d r = dmap f d' r.
Proof. intros H. unfold dmap. rewrite H. reflexivity. Qed.
Lemma elem_dec t e t' p : dec_goal t -> simple ds t -> no_tuple t = true -> dec_x t = Some e -> lower_type look [] t = Some t' -> same_dec (fun r => evd ((tx "r", BB r) :: p) e) (gdec t').
Proof. intros IH Hs Hn He Hl r. eapply IH; try eassumption. reflexivity. Qed.
Definition sub_goal (t : sty) : Prop := match t with SVec u | SHashSet u => dec_goal u | SHashMap k v => dec_goal k /\ dec_goal v | _ => True end.
Lemma dec_ok2 t : dec_goal t /\ sub_goal t.
Proof.
  induction t as [pr|t [IH _]|k v0 [IHk _] [IHv _]|t [IH _]|t [IH _]|t [_ IH]|ts _|t n [IH _]|path name ts _] using LowerProofs.sty_ind2; cbn [sub_goal] in *; (split; [|auto]); intros e t' p r Hs Hn He Hl Hr.
  - cbn [dec_x lower_type] in *. apply some_inj in He, Hl. subst e t'. unfold xbuf. erewrite d_prim by exact Hr. destruct pr; reflexivity.
  - cbn [dec_x lower_type simple no_tuple] in *. destruct (go_type t) as [g|]; [|discriminate]. destruct (dec_x t) as [et|] eqn:Ee; [|discriminate]. apply omap_some in Hl as (lt & El & ->). apply some_inj in He. subst e.
    rewrite d_seq with (r := r) by (try exact Hr; reflexivity). cbn [Go.go_dec_ty]. apply dmap_eq. apply (ex_read_seq R Rex). eapply elem_dec; eassumption || reflexivity.
  - cbn [dec_x lower_type simple no_tuple] in *. apply andb_true_iff in Hn as [N1 N2]. destruct Hs as [S1 S2]. destruct (go_type k) as [gk|]; [|discriminate]. destruct (go_type v0) as [gv|]; [|discriminate].
    destruct (dec_x k) as [ek|] eqn:Ek; [|discriminate]. destruct (dec_x v0) as [ev|] eqn:Ev; [|discriminate]. destruct (lower_type look [] k) as [lk|] eqn:Lk; [|discriminate]. destruct (lower_type look [] v0) as [lv|] eqn:Lv; [|discriminate].
    apply some_inj in He, Hl. subst e t'. rewrite d_map with (r := r) by exact Hr. cbn [Go.go_dec_ty]. apply dmap_eq. apply (ex_read_map R Rex); [eapply (elem_dec k)|eapply (elem_dec v0)]; eassumption || reflexivity.
  - cbn [dec_x lower_type simple no_tuple] in *. destruct (go_type t) as [g|]; [|discriminate]. destruct (dec_x t) as [et|] eqn:Ee; [|discriminate]. apply omap_some in Hl as (lt & El & ->). apply some_inj in He. subst e.
    rewrite d_seq with (r := r) by (try exact Hr; reflexivity). cbn [Go.go_dec_ty]. apply dmap_eq. apply (ex_read_seq R Rex). eapply elem_dec; eassumption || reflexivity.
  - cbn [dec_x lower_type simple no_tuple] in *. destruct (go_type t) as [g|]; [|discriminate]. destruct (dec_x t) as [et|] eqn:Ee; [|discriminate]. apply omap_some in Hl as (lt & El & ->). apply some_inj in He. subst e.
    rewrite d_option with (r := r) by exact Hr. cbn [Go.go_dec_ty]. apply dmap_eq. apply (ex_read_option R Rex). eapply elem_dec; eassumption || reflexivity.
  - cbn [lower_type simple no_tuple] in *. apply omap_some in Hl as (lt & Hl & ->). destruct t as [pr|t|k v0|t|t|t|ts|t n|path name ts]; cbn [dec_x] in He; try discriminate He.
    + destruct (nz_encodable pr) eqn:Enz; [|discriminate]. apply some_inj in He. subst e. cbn [lower_type] in Hl. apply some_inj in Hl. subst lt. unfold xbuf. erewrite d_prim by exact Hr. destruct pr; try discriminate Enz; reflexivity.
    + destruct (go_type t) as [g|] eqn:Eg; [|discriminate]. destruct (dec_x t) as [et|] eqn:Ee; [|discriminate]. cbn [lower_type simple no_tuple] in *. apply omap_some in Hl as (l0 & El & ->). apply some_inj in He. subst e.
      rewrite d_seq with (r := r) by (try exact Hr; reflexivity). cbn [Go.go_dec_ty]. apply dmap_eq. apply (ex_read_seq R Rex). eapply elem_dec; eassumption || reflexivity.
    + cbn [lower_type simple no_tuple] in *. apply andb_true_iff in Hn as [N1 N2]. destruct Hs as [S1 S2]. destruct IH as [IHk IHv]. destruct (go_type k) as [gk|]; [|discriminate]. destruct (go_type v0) as [gv|]; [|discriminate].
      destruct (dec_x k) as [ek|] eqn:Ek; [|discriminate]. destruct (dec_x v0) as [ev|] eqn:Ev; [|discriminate]. destruct (lower_type look [] k) as [lk|] eqn:Lk; [|discriminate]. destruct (lower_type look [] v0) as [lv|] eqn:Lv; [|discriminate].
      apply some_inj in He, Hl. subst e lt. rewrite d_map with (r := r) by exact Hr. cbn [Go.go_dec_ty]. apply dmap_eq. apply (ex_read_map R Rex); [eapply (elem_dec k)|eapply (elem_dec v0)]; eassumption || reflexivity.
    + destruct (go_type t) as [g|] eqn:Eg; [|discriminate]. destruct (dec_x t) as [et|] eqn:Ee; [|discriminate]. cbn [lower_type simple no_tuple] in *. apply omap_some in Hl as (l0 & El & ->). apply some_inj in He. subst e.
      rewrite d_seq with (r := r) by (try exact Hr; reflexivity). cbn [Go.go_dec_ty]. apply dmap_eq. apply (ex_read_seq R Rex). eapply elem_dec; eassumption || reflexivity.
  - discriminate.
  - cbn [dec_x lower_type simple no_tuple] in *. destruct ((1 <=? n) && (n <=? 32)); [|discriminate]. destruct (go_type t) as [g|]; [|discriminate]. destruct (dec_x t) as [et|] eqn:Ee; [|discriminate]. apply omap_some in Hl as (lt & El & ->). apply some_inj in He. subst e.
    rewrite d_seq with (r := r) by (try exact Hr; reflexivity). cbn [Go.go_dec_ty]. apply dmap_eq. unfold buf_of at 1. cbn [Go.gd_seq]. unfold seq_name. rewrite N2Nat.id. apply (ex_read_seq R Rex). eapply elem_dec; eassumption || reflexivity.
  - cbn [dec_x lower_type simple] in *. destruct Hs as (-> & -> & c & fs & Hin). cbn [go_type rev map collect option_map] in He. apply some_inj in He. subst e. cbn [all_opt] in Hl. unfold lower_ref in Hl. cbn [position] in Hl.
    apply omap_some in Hl as (i & Hi & ->). unfold xid. cbn [ev_d]. unfold var_bytes. rewrite Hr. cbn [Go.go_dec_ty]. eapply Hcall; eassumption.
Qed.
Lemma dec_ok t : dec_goal t.
Proof. apply dec_ok2. Qed.

(** * Statements *)
Section Fuel.
Variable fuel : nat.
Notation xe := (exec items R call fuel).
Notation xb := (exec_block items R call fuel).
Section Loop.
Variables (x : str) (body : list gx).
Fixpoint loopf (k : nat) (p : scope) {struct k} : res flow :=
  match var_bytes p x with
  | Some [] => Ok (Next p)
  | Some (_ :: _) =>
      match k with
      | O => Diverge
      | S k' =>
          do f <- xb p body;
          match leave p f with
          | Next p' => loopf k' p'
          | Brk p' => Ok (Next p')
          | Ret p' l => Ok (Ret p' l)
          end
      end
  | None => Panic
  end.
End Loop.
Section Pick.
Variables (p : scope) (id : N).
Fixpoint pickf (cs : list (gx * list gx)) : res flow :=
  match cs with
  | [] => Ok (Next p)
  | (c, b) :: cs' =>
      match case_value R c with
      | Some n =>
          if n =? id then
            do f <- xb p b;
            match leave p f with Brk p' => Ok (Next p') | f => Ok f end
          else pickf cs'
      | None => Panic
      end
  end.
End Pick.
Lemma exec_for p x body : xe p (YFor (XGt0 (XCall (xid "len") [XId x])) body) = loopf x body fuel p.
Proof. reflexivity. Qed.
Lemma exec_switch p x cases id : at_var p x = Some (NN id) -> xe p (YSwitch (XId x) cases) = pickf p id cases.
Proof. intros H. cbn [exec]. rewrite H. reflexivity. Qed.
Lemma exec_def p t e x y z : dec_x t = Some e -> no_tuple t = true -> xe p (YDef [x; y; z] e) =
  match evd p e with
  | Ok (v, b') => Ok (Next ((x, BB b') :: (y, MV GEmpty v) :: (z, NIL) :: p))
  | Err er => Ok (Next ((x, NIL) :: (y, NIL) :: (z, ER er) :: p))
  | Panic => Panic
  | Diverge => Diverge
  end.
Proof.
  assert (G : forall fn targs args, str_eqb fn (tx "DecodeID") = false -> xe p (YDef [x; y; z] (XCall (XFrom (tx "buf") fn targs) args)) =
    match evd p (XCall (XFrom (tx "buf") fn targs) args) with
    | Ok (v, b') => Ok (Next ((x, BB b') :: (y, MV GEmpty v) :: (z, NIL) :: p)) | Err er => Ok (Next ((x, NIL) :: (y, NIL) :: (z, ER er) :: p)) | Panic => Panic | Diverge => Diverge end).
  { intros fn targs args Hf. cbn [exec]. rewrite Hf. destruct (evd p (XCall (XFrom (tx "buf") fn targs) args)) as [[v b']| | |]; reflexivity. }
  intros He Hn. destruct t as [pr|t|k v|t|t|t|ts|t n|path name ts]; cbn [dec_x] in He.
  - apply some_inj in He. subst e. unfold xbuf. apply G. destruct pr; reflexivity.
  - destruct (go_type t), (dec_x t); try discriminate. apply some_inj in He. subst e. apply G. reflexivity.
  - destruct (go_type k), (go_type v), (dec_x k), (dec_x v); try discriminate. apply some_inj in He. subst e. reflexivity.
  - destruct (go_type t), (dec_x t); try discriminate. apply some_inj in He. subst e. apply G. reflexivity.
  - destruct (go_type t), (dec_x t); try discriminate. apply some_inj in He. subst e. apply G. reflexivity.
  - destruct t as [pr|t|k v|t|t|t|ts|t n|path name ts]; try discriminate He.
    + destruct (nz_encodable pr); [|discriminate]. apply some_inj in He. subst e. unfold xbuf. apply G. destruct pr; reflexivity.
    + destruct (go_type t), (dec_x t); try discriminate. apply some_inj in He. subst e. apply G. reflexivity.
    + destruct (go_type k), (go_type v), (dec_x k), (dec_x v); try discriminate. apply some_inj in He. subst e. reflexivity.
    + destruct (go_type t), (dec_x t); try discriminate. apply some_inj in He. subst e. apply G. reflexivity.
  - discriminate Hn.
  - destruct ((1 <=? n) && (n <=? 32)); [|discriminate]. destruct (go_type t), (dec_x t); try discriminate. apply some_inj in He. subst e. apply G. reflexivity.
  - apply omap_some in He as (g & _ & ->). reflexivity.
Qed.

(** * The scope inside [Decode] *)
Section Body.
Variables (name : str) (fs : sfields) (flds : list (comment * (str * gty))) (fl' : list field).
Notation fl := (ss_fields fs).
Hypothesis Hflds : go_fields fs = Some flds.
Hypothesis Hdecl : struct_decl items name = Some (map snd flds).
Hypothesis Hsimple : Forall (fun f => simple ds (sf_ty f)) fl.
Hypothesis Hfree : Forall (fun f => no_tuple (sf_ty f) = true) fl.
Hypothesis Hnodup : NoDup (map (fun f => camel (sf_name f)) fl).
Hypothesis Hlow : Forall2 (fun f f' => lower_field look [] f = Some f') fl fl'.
Definition names : list str := map found_name fl.
Definition base (r : list N) (vs : list val) : scope := [(tx "r", BB r); (tx "v", MV (GNamed name []) (VRec vs))].
Definition state (bs : list bool) (r : list N) (vs : list val) : scope := flags names bs ++ base r vs.
Lemma names_nodup : NoDup names.
Proof.
  unfold names. assert (G : map found_name fl = map (fun s => tx "found" ++ s) (map (fun f => camel (sf_name f)) fl)) by (rewrite map_map; reflexivity). rewrite G.
  apply Coq.Logic.FinFun.Injective_map_NoDup; [|exact Hnodup]. intros a b H. apply app_inv_head in H. exact H.
Qed.
Lemma not_found bs x : length bs = length fl -> hd 0 x <> 102 -> ~ In x (map fst (flags names bs)).
Proof.
  intros Hl Hx H. rewrite flags_fst in H by (unfold names; rewrite map_length; auto). rewrite <- in_rev in H. unfold names in H. apply in_map_iff in H as (f & <- & _). apply Hx. reflexivity.
Qed.
Lemma state_at bs r vs x : length bs = length fl -> hd 0 x <> 102 -> at_var (state bs r vs) x = at_var (base r vs) x.
Proof. intros Hl Hx. apply at_app, not_found; assumption. Qed.
Lemma state_assign bs r vs x u : length bs = length fl -> hd 0 x <> 102 -> assign_var (state bs r vs) x u = flags names bs ++ assign_var (base r vs) x u.
Proof. intros Hl Hx. apply assign_app, not_found; assumption. Qed.
Lemma state_r bs r vs r' : length bs = length fl -> assign_var (state bs r vs) (tx "r") (BB r') = state bs r' vs.
Proof. intros Hl. rewrite state_assign by (try exact Hl; discriminate). reflexivity. Qed.
Lemma state_v bs r vs u : length bs = length fl -> assign_var (state bs r vs) (tx "v") (MV (GNamed name []) (VRec u)) = state bs r u.
Proof. intros Hl. rewrite state_assign by (try exact Hl; discriminate). reflexivity. Qed.
Lemma state_len bs r vs : length bs = length fl -> length (state bs r vs) = (length fl + 2)%nat.
Proof. intros Hl. unfold state, flags. rewrite app_length, rev_length, combine_length, map_length. unfold names. rewrite map_length, Hl. cbn [length base]. lia. Qed.

Definition body (cases : list (gx * list gx)) : list gx :=
  [YDef [tx "r2"; tx "id"; tx "err"] (XCall (xbuf (tx "DecodeID") []) [xid "r"]);
   if_err [xid "nil"; xid "err"];
   YSet (xid "r") (xid "r2"); YBlank;
   YSwitch (xid "id") (cases ++ [(xbuf (tx "EndMarker") [], [YBreak])])].
Notation d := (gdec).
Definition one_step (s : slots) (r : list N) : res (slots * list N) :=
  do (id, r1) <- rt_read_id R (tx "DecodeID") r;
  match find_field id fl' 0 with
  | Some (k, f) => do (v, r2) <- d (f_ty f) r1; Ok (set_slot k v s, r2)
  | None => Ok (s, r1)
  end.
Definition sim (wrap : scope -> flow -> Prop) (o : res flow) (g : res (slots * list N)) : Prop :=
  match g with
  | Ok (s', r') => exists bs' vs' f, rel s' bs' vs' /\ length s' = length fl /\ o = Ok f /\ wrap (state bs' r' vs') f
  | Err e => exists p, o = Ok (Ret p [NIL; ER e])
  | Panic => o = Panic
  | Diverge => o = Diverge
  end.
Lemma three p0 q a b c : length p0 = length q -> leave p0 (Next (a :: b :: c :: q)) = Next q.
Proof. intros H. unfold leave. cbn [length]. replace (S (S (S (length q))) - length p0)%nat with 3%nat by lia. reflexivity. Qed.
Lemma set_slot_len k v s : length (set_slot k v s) = length s.
Proof. revert k. induction s as [|x s IH]; intros [|k]; cbn [set_slot length]; auto. Qed.

Ltac vars := repeat match goal with |- context [str_eqb (tx ?a) (tx ?b)] => let v := eval vm_compute in (str_eqb (tx a) (tx b)) in change (str_eqb (tx a) (tx b)) with v; cbv iota end.

(** The block of one case. *)
Lemma case_ok p1 bs r1 vs k f f' e s : p1 = state bs r1 vs -> rel s bs vs -> length s = length fl -> nth_error fl k = Some f -> nth_error fl' k = Some f' -> dec_x (sf_ty f) = Some e -> forall a b,
  sim (fun q fl => exists c d e, fl = Next (c :: d :: e :: (tx "r2", a) :: (tx "id", b) :: (tx "err", NIL) :: q))
    (xb ((tx "r2", a) :: (tx "id", b) :: (tx "err", NIL) :: p1)
      [YDef [tx "r2"; tx "value"; tx "err"] e; if_err [xid "nil"; xid "err"]; YSet (xid "r") (xid "r2"); YSet (XSel (xid "v") (camel (sf_name f))) (xid "value"); YSet (XId (found_name f)) (xid "true")])
    (do (v, r2) <- d (f_ty f') r1; Ok (set_slot k v s, r2)).
Proof.
  intros -> Hrel Hlen Hf Hf' He a b. destruct (rel_len _ _ _ Hrel) as [Lb Lv]. assert (Lbs : length bs = length fl) by congruence.
  assert (Hin : In f fl) by (eapply nth_error_In; exact Hf). rewrite Forall_forall in Hsimple, Hfree.
  assert (Hl : lower_field look [] f = Some f').
  { exact (forall2_nth _ _ _ k f f' Hlow Hf Hf'). }
  unfold lower_field in Hl. apply omap_some in Hl as (t' & Hl & ->). cbn [f_ty].
  cbn [exec_block]. rewrite (exec_def _ (sf_ty f) e _ _ _ He (Hfree f Hin)).
  rewrite (dec_ok (sf_ty f) e t' _ r1 (Hsimple f Hin) (Hfree f Hin) He Hl) by (cbn [at_var]; vars; rewrite state_at by (try exact Lbs; discriminate); reflexivity).
  destruct (d t' r1) as [[v r2]|er| |]; cbn [bind].
  - unfold if_err, xid. cbn [exec at_var]. vars. cbn [bind at_var]. vars. cbn [assign_var]. vars. rewrite state_at by (try exact Lbs; discriminate). cbn [base at_var]. vars. cbn [bind].
    rewrite state_r by exact Lbs. cbn [at_var]. vars. unfold assign_field. cbn [at_var]. vars. rewrite state_at by (try exact Lbs; discriminate). cbn [base at_var]. vars. rewrite Hdecl.
    destruct (decl_ok fs flds Hflds) as [Dn _]. rewrite Dn. rewrite (index_nth _ k Hnodup) by (rewrite nth_error_map, Hf; reflexivity).
    cbn [assign_var bind]. vars. rewrite state_v by exact Lbs.
    assert (Hb : nth_error bs k <> None) by (apply nth_error_Some; rewrite Lbs; apply nth_error_Some; congruence). destruct (nth_error bs k) as [b0|] eqn:Hbk; [|congruence].
    assert (Hx : nth_error names k = Some (found_name f)) by (unfold names; rewrite nth_error_map, Hf; reflexivity).
    assert (NF : forall y, hd 0 y <> 102 -> str_eqb y (found_name f) = false) by (intros y Hy; apply str_ne; intros ->; apply Hy; reflexivity).
    cbn [at_var]. rewrite !NF by discriminate. unfold state at 1. rewrite (flags_at names bs _ k (found_name f) b0) by (try assumption; try apply names_nodup; unfold names; rewrite map_length; auto).
    cbn [assign_var]. rewrite !NF by discriminate. unfold state. rewrite (flags_set names bs _ k (found_name f)) by (try assumption; try apply names_nodup; unfold names; rewrite map_length; auto).
    cbn [bind sim]. eexists _, _, _. split; [apply rel_set, Hrel|]. split; [rewrite set_slot_len; exact Hlen|]. split; [reflexivity|]. eexists _, _, _. reflexivity.
  - unfold if_err, xid. cbn [exec at_var]. vars. cbn [sim bind]. 
    unfold ev_r. cbn [map at_var]. vars. rewrite state_at by (try exact Lbs; discriminate). cbn [base at_var]. vars. cbn [collect option_map bind leave]. eexists. reflexivity.
  - reflexivity.
  - reflexivity.
Qed.

Notation three_of a id q := ((tx "r2", a) :: (tx "id", NN id) :: (tx "err", NIL) :: q).
Lemma sim_bind (w1 w2 : scope -> flow -> Prop) o g (k : flow -> res flow) : sim w1 o g -> (forall bs r vs f, length bs = length fl -> w1 (state bs r vs) f -> exists f', k f = Ok f' /\ w2 (state bs r vs) f') -> (forall p l, k (Ret p l) = Ok (Ret p l)) -> sim w2 (do f <- o; k f) g.
Proof.
  intros H Hk Hr. destruct g as [[s' r']|e| |]; cbn [sim] in *.
  - destruct H as (bs' & vs' & f & H1 & H2 & -> & H3). cbn [bind]. assert (L : length bs' = length fl) by (destruct (rel_len _ _ _ H1); congruence). destruct (Hk _ _ _ _ L H3) as (f' & -> & Hw). eexists _, _, _. repeat split; eassumption.
  - destruct H as (p & ->). cbn [bind]. rewrite Hr. eauto.
  - subst. reflexivity.
  - subst. reflexivity.
Qed.
Lemma state_len2 bs r vs bs' r' vs' : length bs = length fl -> length bs' = length fl -> length (state bs r vs) = length (state bs' r' vs').
Proof. intros H H'. rewrite !state_len by assumption. reflexivity. Qed.
Lemma pick_ok bs r1 vs s id a : rel s bs vs -> length s = length fl ->
  forall l l' cs i, skipn i fl = l -> skipn i fl' = l' -> collect (map dec_case l) = Some cs -> length l = length l' ->
  sim (fun q f => f = Next (three_of a id q)) (pickf (three_of a id (state bs r1 vs)) id (cs ++ [(xbuf (tx "EndMarker") [], [YBreak])]))
    (match find_field id l' i with Some (k, f) => do (v, r2) <- d (f_ty f) r1; Ok (set_slot k v s, r2) | None => Ok (s, r1) end).
Proof.
  intros Hrel Hlen. assert (Lbs : length bs = length fl) by (destruct (rel_len _ _ _ Hrel); congruence).
  induction l as [|f l IH]; intros l' cs i El El' Hc Hll.
  - destruct l'; [|discriminate]. apply some_inj in Hc. subst cs. cbn [find_field sim app]. exists bs, vs, (Next (three_of a id (state bs r1 vs))). split; [exact Hrel|]. split; [exact Hlen|]. split; [|reflexivity].
    unfold xbuf. cbn [pickf case_value]. vars. cbn [andb]. destruct (rt_end R =? id); [|reflexivity]. cbn [exec_block exec bind leave]. rewrite Nat.sub_diag. reflexivity.
  - destruct l' as [|f' l']; [discriminate|]. injection Hll as Hll. destruct (skipn_cons _ _ _ _ El) as [F1 F2]. destruct (skipn_cons _ _ _ _ El') as [G1 G2].
    cbn [map collect] in Hc. destruct (dec_case f) as [[c b]|] eqn:Ec; [|discriminate]. apply omap_some in Hc as (cs' & Hc & ->). unfold dec_case in Ec. apply omap_some in Ec as (e & He & Ec). injection Ec as -> ->.
    assert (Hid : f_id f' = sf_id f) by (pose proof (forall2_nth _ _ _ _ _ _ Hlow F1 G1) as K; unfold lower_field in K; apply omap_some in K as (t' & _ & ->); reflexivity).
    cbn [app pickf case_value find_field]. rewrite Hid. destruct (sf_id f =? id); [|apply (IH l' cs' (S i) F2 G2 Hc Hll)].
    eapply sim_bind; [eapply case_ok; try eassumption; reflexivity| |reflexivity].
    intros bs0 r0 vs0 f0 L0 (x & y & z & ->). eexists. split; [|reflexivity]. cbv beta.
    rewrite (three (three_of a id (state bs r1 vs)) (three_of a id (state bs0 r0 vs0)) x y z) by (cbn [length]; do 3 f_equal; apply state_len2; assumption). reflexivity.
Qed.
Lemma iter_ok bs r vs s cs : rel s bs vs -> length s = length fl -> length fl = length fl' -> collect (map dec_case fl) = Some cs ->
  sim (fun q f => exists a b c, f = Next (a :: b :: c :: q)) (xb (state bs r vs) (body cs)) (one_step s r).
Proof.
  intros Hrel Hlen Hll Hc. assert (Lbs : length bs = length fl) by (destruct (rel_len _ _ _ Hrel); congruence).
  unfold body, xbuf, xid. remember (YSwitch (XId (tx "id")) (cs ++ [(XFrom (tx "buf") (tx "EndMarker") [], [YBreak])])) as sw eqn:Esw. cbn [exec_block exec]. unfold var_bytes. rewrite state_at by (try exact Lbs; discriminate). cbn [base at_var]. vars. unfold one_step.
  destruct (rt_read_id R (tx "DecodeID") r) as [[id r1]|er| |]; cbn [bind].
  - unfold if_err, xid. cbn [exec at_var]. vars. cbn [bind]. unfold xid. cbn [exec at_var]. vars. rewrite state_at by (try exact Lbs; discriminate). cbn [base at_var]. vars. cbn [assign_var bind]. vars. rewrite state_r by exact Lbs. cbn [bind].
    rewrite Esw. rewrite exec_switch with (id := id) by reflexivity.
    eapply sim_bind; [apply (pick_ok bs r1 vs s id (BB r1) Hrel Hlen fl fl' cs 0%nat); auto| |reflexivity].
    intros bs0 r0 vs0 f0 L0 ->. eexists. split; [reflexivity|]. eexists _, _, _. reflexivity.
  - unfold if_err, xid. cbn [exec at_var]. vars. cbn [sim bind].
    unfold ev_r. cbn [map at_var]. vars. rewrite state_at by (try exact Lbs; discriminate). cbn [base at_var]. vars. cbn [collect option_map bind leave]. eexists. reflexivity.
  - reflexivity.
  - reflexivity.
Qed.
Lemma loop_step k s r x : r = x :: tl r -> Go.go_loop (buf_of R) d fl' (S k) s r = do (s', r') <- one_step s r; Go.go_loop (buf_of R) d fl' k s' r'.
Proof.
  intros ->. unfold one_step. cbn [Go.go_loop]. unfold buf_of at 1. cbn [Go.gd_id]. destruct (rt_read_id R (tx "DecodeID") (x :: tl r)) as [[id r1]| | |]; cbn [bind]; try reflexivity.
  destruct (find_field id fl' 0) as [[j f]|]; [|reflexivity]. destruct (d (f_ty f) r1) as [[v r2]| | |]; reflexivity.
Qed.
Lemma loop_ok cs : length fl = length fl' -> collect (map dec_case fl) = Some cs -> forall k s bs vs r, rel s bs vs -> length s = length fl ->
  sim (fun q f => f = Next q) (loopf (tx "r") (body cs) k (state bs r vs)) (Go.go_loop (buf_of R) d fl' k s r).
Proof.
  intros Hll Hc. induction k as [|k IH]; intros s bs vs r Hrel Hlen; assert (Lbs : length bs = length fl) by (destruct (rel_len _ _ _ Hrel); congruence).
  - cbn [loopf]. unfold var_bytes. rewrite state_at by (try exact Lbs; discriminate). cbn [base at_var]. vars. destruct r; cbn [Go.go_loop sim]; [|reflexivity]. eexists _, _, _. repeat split; try eassumption.
  - cbn [loopf]. unfold var_bytes. rewrite state_at by (try exact Lbs; discriminate). cbn [base at_var]. vars. destruct r as [|x r]; [cbn [Go.go_loop sim]; eexists _, _, _; repeat split; try eassumption|].
    rewrite (loop_step k s (x :: r) x eq_refl). pose proof (iter_ok bs (x :: r) vs s cs Hrel Hlen Hll Hc) as H. destruct (one_step s (x :: r)) as [[s' r']|e| |]; cbn [sim] in H; cbn [bind].
    + destruct H as (bs' & vs' & f & H1 & H2 & -> & a & b & c & ->). cbn [bind]. assert (L' : length bs' = length fl) by (destruct (rel_len _ _ _ H1); congruence).
      rewrite three by (apply state_len2; assumption). apply IH; assumption.
    + destruct H as (p & ->). cbn [bind leave sim]. eauto.
    + rewrite H. reflexivity.
    + rewrite H. reflexivity.
Qed.

(** The declarations of the flags. *)
Lemma defs_ok r vs rest : xb (base r vs) (map (fun f => YDef [found_name f] (xid "false")) fl ++ rest) = xb (state (map (fun _ => false) fl) r vs) rest.
Proof.
  assert (G : forall l p, xb p (map (fun f => YDef [found_name f] (xid "false")) l ++ rest) = xb (flags (map found_name l) (map (fun _ => false) l) ++ p) rest).
  { induction l as [|f l IH]; intros p; [reflexivity|]. cbn [map app exec_block]. unfold xid at 1. cbn [exec]. vars. cbn [bind]. rewrite IH. unfold flags. cbn [map combine rev]. rewrite <- app_assoc. reflexivity. }
  apply G.
Qed.
(** The checks after the loop. *)
Lemma found_ok r rest : (ss_kind fs = SKNamed -> Forall (fun f => sf_name f <> []) fl) -> length fl = length fl' -> forall s bs vs, rel s bs vs -> length s = length fl ->
  match Go.go_found (lower_kind (ss_kind fs)) fl' s with
  | Ok vs' => vs' = vs /\ xb (state bs r vs) (map (found_check (ss_kind fs)) fl ++ rest) = xb (state bs r vs) rest
  | Err e => exists p, xb (state bs r vs) (map (found_check (ss_kind fs)) fl ++ rest) = Ok (Ret p [NIL; ER e])
  | _ => False
  end.
Proof.
  intros Hnm Hll s bs vs Hrel Hlen. assert (Lbs : length bs = length fl) by (destruct (rel_len _ _ _ Hrel); congruence). 
  assert (G : forall l l' s' bs' vs' i, skipn i fl = l -> skipn i fl' = l' -> skipn i bs = bs' -> length s' = length l -> length l = length l' -> rel s' bs' vs' ->
    match Go.go_found (lower_kind (ss_kind fs)) l' s' with
    | Ok w => w = vs' /\ xb (state bs r vs) (map (found_check (ss_kind fs)) l ++ rest) = xb (state bs r vs) rest
    | Err e => exists p, xb (state bs r vs) (map (found_check (ss_kind fs)) l ++ rest) = Ok (Ret p [NIL; ER e])
    | _ => False end).
  { induction l as [|f l IH]; intros l' s' bs' vs' i El El' Eb Hl1 Hl2 Hr.
    - destruct l'; [|discriminate]. destruct s'; [|discriminate]. cbn [Go.go_found map app]. inversion Hr. split; reflexivity.
    - destruct l' as [|f' l']; [discriminate|]. destruct s' as [|o s']; [discriminate|]. injection Hl1 as Hl1. injection Hl2 as Hl2. cbn [Go.go_found map app exec_block].
      destruct (skipn_cons _ _ _ _ El) as [F1 F2]. destruct (skipn_cons _ _ _ _ El') as [G1 G2]. destruct bs' as [|b bs']; [inversion Hr|]. destruct (skipn_cons _ _ _ _ Eb) as [B1 B2].
      assert (Hat : at_var (state bs r vs) (found_name f) = Some (BL b)).
      { eapply flags_at; [unfold names; rewrite map_length; auto|apply names_nodup|unfold names; rewrite nth_error_map, F1; reflexivity|exact B1]. }
      pose proof (forall2_nth _ _ _ _ _ _ Hlow F1 G1) as K. unfold lower_field in K. apply omap_some in K as (t' & _ & ->). cbn [f_id f_name].
      unfold found_check at 1 3. cbn [exec]. rewrite Hat. destruct o as [v|].
      + assert (exists vs1, b = true /\ vs' = v :: vs1 /\ rel s' bs' vs1) as (vs1 & -> & -> & Hr') by (clear - Hr; inversion Hr; subst; eauto). cbn [negb bind].
        specialize (IH l' s' bs' vs1 (S i) F2 G2 B2 Hl1 Hl2 Hr'). destruct (Go.go_found (lower_kind (ss_kind fs)) l' s'); cbn [bind]; try contradiction; [|exact IH].
        destruct IH as [-> IH]. split; [reflexivity|exact IH].
      + assert (b = false) as -> by (clear - Hr; inversion Hr; reflexivity). cbn [negb bind]. unfold xid. cbn [ev_r map]. rewrite state_at by (try exact Lbs; discriminate). cbn [base at_var]. vars. cbn [collect option_map bind leave]. eexists.
        do 6 f_equal. destruct (ss_kind fs) eqn:Ek; cbn [lower_kind]; try reflexivity.
        specialize (Hnm eq_refl). rewrite Forall_forall in Hnm. specialize (Hnm f (nth_error_In _ _ F1)). destruct (sf_name f); [contradiction|reflexivity]. }
  apply (G fl fl' s bs vs 0%nat); auto.
Qed.
(** The body of [Decode]. *)
Lemma dbody_ok b r vs : (ss_kind fs = SKNamed -> Forall (fun f => sf_name f <> []) fl) -> dec_body fs = Some b -> length vs = length fl ->
  match Go.go_dec_body (buf_of R) fuel d (Fields (lower_kind (ss_kind fs)) fl') r with
  | Ok (vs', r') => exists p g, xb (base r vs) b = Ok (Ret p [BB r'; NIL]) /\ at_var p (tx "v") = Some (MV g (VRec vs'))
  | Err e => exists p, xb (base r vs) b = Ok (Ret p [NIL; ER e])
  | Panic => xb (base r vs) b = Panic
  | Diverge => xb (base r vs) b = Diverge
  end.
Proof.
  intros Hnm Hb Lv. assert (Hll : length fl = length fl') by (apply (forall2_len _ _ _ Hlow)). unfold dec_body in Hb. apply omap_some in Hb as (cs & Hc & ->).
  rewrite defs_ok. cbn [app exec_block]. change (xe (state (map (fun _ => false) fl) r vs) YBlank) with (@Ok flow (Next (state (map (fun _ => false) fl) r vs))). cbn [bind].
  change [YDef [tx "r2"; tx "id"; tx "err"] (XCall (xbuf (tx "DecodeID") []) [xid "r"]); if_err [xid "nil"; xid "err"]; YSet (xid "r") (xid "r2"); YBlank; YSwitch (xid "id") (cs ++ [(xbuf (tx "EndMarker") [], [YBreak])])] with (body cs).
  change (xid "r") with (XId (tx "r")). rewrite exec_for.
  assert (Hrel : rel (map (fun _ => None) fl') (map (fun _ => false) fl) vs).
  { clear - Lv Hll. revert fl' vs Hll Lv. generalize fl as l. induction l as [|x l IH]; intros [|y l'] [|v vs] H1 H2; try discriminate; cbn [map]; constructor. apply IH; cbn [length] in H1, H2; lia. }
  unfold Go.go_dec_body. cbn [fs_list fs_kind]. pose proof (loop_ok cs Hll Hc fuel _ _ _ r Hrel ltac:(rewrite map_length; auto)) as HL.
  destruct (Go.go_loop (buf_of R) d fl' fuel (map (fun _ => None) fl') r) as [[s1 r1]|e| |]; cbn [sim bind] in *.
  - destruct HL as (bs1 & vs1 & f & Hr1 & Hl1 & -> & ->). cbn [bind]. assert (L1 : length bs1 = length fl) by (destruct (rel_len _ _ _ Hr1); congruence).
    change (xe (state bs1 r1 vs1) YBlank) with (@Ok flow (Next (state bs1 r1 vs1))). cbn [bind].
    pose proof (found_ok r1 [YBlank; YRet [XId (tx "r"); xid "nil"]] Hnm Hll s1 bs1 vs1 Hr1 Hl1) as HF.
    destruct (Go.go_found (lower_kind (ss_kind fs)) fl' s1) as [vs'|e| |]; cbn [bind]; try contradiction.
    + destruct HF as [-> HF]. rewrite HF. unfold xid. cbn [exec_block exec bind ev_r map]. rewrite !state_at by (try exact L1; discriminate). cbn [base at_var]. vars. cbn [collect option_map bind]. eexists _, _. split; [reflexivity|].
      rewrite state_at by (try exact L1; discriminate). reflexivity.
    + destruct HF as (p & HF). rewrite HF. eauto.
  - destruct HL as (p & ->). cbn [bind]. eauto.
  - rewrite HL. reflexivity.
  - rewrite HL. reflexivity.
Qed.
End Body.
End Fuel.
End Read.

Lemma run_decode_ok (Hok : structs_ok items ds look E) (Hfree : tuple_free ds) (Hnamed : forall c n fs, In (@SStruct F c n [] fs) ds -> ss_kind fs = SKNamed -> Forall (fun f => sf_name f <> []) (ss_fields fs)) fuel :
  forall c n fs i r vs, In (@SStruct F c n [] fs) ds -> look [] n = Some i -> length vs = length (ss_fields fs) -> run_decode items R fuel (camel n) vs r = Go.go_ext (buf_of R) E fuel i [] r.
Proof.
  induction fuel as [|fuel IH]; intros c n fs i r vs Hin Hi Lv; [reflexivity|]. destruct (Hok c n fs Hin) as (HU & Hs & Hn & i' & fs' & Hi' & HE & Hl). assert (i' = i) by congruence. subst i'.
  destruct (ua_fields _ _ _ _ HU) as (flds & Hf & Hdecl). destruct (ua_decode _ _ _ _ HU) as (b & Hb & Hm). cbn [run_decode Go.go_ext]. rewrite Hm, HE, PropAmplify.inst_nil.
  unfold lower_fields in Hl. apply omap_some in Hl as (fl' & Hl & ->). apply LowerProofs.all_opt_forall2 in Hl.
  match goal with |- context [exec_block items R ?c] => set (call := c) end.
  assert (Hcall : dcall_ok call (Go.go_ext (buf_of R) E fuel)).
  { intros c0 n0 fs0 i0 r0 Hin0 Hi0. unfold call. apply (IH c0 n0 fs0 i0 r0); try assumption. destruct (Hok c0 n0 fs0 Hin0) as (HU0 & _). destruct (ua_fields _ _ _ _ HU0) as (fl0 & Hf0 & Hd0).
    unfold zero_of. rewrite Hd0. rewrite !map_length. destruct (decl_ok fs0 fl0 Hf0) as [_ K]. apply forall2_len in K. rewrite map_length in K. auto. }
  pose proof (dbody_ok call (Go.go_ext (buf_of R) E fuel) Hcall (S fuel) (camel n) fs flds fl' Hf Hdecl Hs (Hfree c n fs Hin) Hn Hl b r vs (Hnamed c n fs Hin) Hb Lv) as HB.
  unfold base in HB. unfold dmap. destruct (Go.go_dec_body (buf_of R) (S fuel) (Go.go_dec_ty (buf_of R) (Go.go_ext (buf_of R) E fuel)) (Fields (lower_kind (ss_kind fs)) fl') r) as [[vs' r']|e| |]; cbn [bind].
  - destruct HB as (p & g & -> & Hp). cbn [bind]. rewrite Hp. reflexivity.
  - destruct HB as (p & ->). reflexivity.
  - rewrite HB. reflexivity.
  - rewrite HB. reflexivity.
Qed.
End Dec.
