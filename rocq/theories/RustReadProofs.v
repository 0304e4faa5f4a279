(** The emitted functions are read back as trees of the intended meaning (used in PropRustText.v). *)
From Verif Require Import Base Varint Wire Codec Syntax Parser Compiler RustFile RustRead RustMeans.
From Verif Require RustCode RustTokens RustTokensProofs Lower LowerProofs.
Import RustCode.
Require Coq.Strings.String.
Import Coq.Strings.String.StringSyntax.
Local Open Scope N_scope.

(** * Sizes *)
Lemma rsizes_app a b : rsizes (a ++ b) = (rsizes a + rsizes b)%nat.
Proof. unfold rsizes. rewrite map_app. induction (map rsize a) as [|x l IH]; [reflexivity|]. cbn [app list_sum fold_right] in *. unfold list_sum in *. cbn [fold_right]. lia. Qed.
Lemma rsizes_cons t l : rsizes (t :: l) = (rsize t + rsizes l)%nat.
Proof. reflexivity. Qed.
Lemma rsizes_nil : rsizes [] = 0%nat.
Proof. reflexivity. Qed.
Lemma rsize_group d l : rsize (G d l) = S (rsizes l).
Proof. reflexivity. Qed.
Lemma rsize_pos t : (1 <= rsize t)%nat.
Proof. destruct t; cbn; lia. Qed.
Ltac rsz := repeat (rewrite ?rsizes_app, ?rsizes_cons, ?rsizes_nil, ?rsize_group in * ).
Lemma rsizes_terminated c l x : In x l -> (rsizes x <= rsizes (terminated c l))%nat.
Proof.
  induction l as [|y l IH]; intros H; [destruct H|]. cbn [terminated flat_map]. change (flat_map (fun x => x ++ [c]) l) with (terminated c l). rsz.
  destruct H as [->|H]; [|specialize (IH H)]; lia.
Qed.
Lemma separated_cons c x y l : separated c (x :: y :: l) = x ++ c :: separated c (y :: l).
Proof. reflexivity. Qed.
Lemma rsizes_separated c l x : In x l -> (rsizes x <= rsizes (separated c l))%nat.
Proof.
  induction l as [|y l IH]; intros H; [destruct H|]. destruct l as [|z l].
  - cbn [separated]. destruct H as [->|[]]. lia.
  - rewrite separated_cons. rsz. destruct H as [->|H]; [|specialize (IH H)]; lia.
Qed.
Lemma length_separated c l : (forall x, In x l -> x <> []) -> (length l <= length (separated c l))%nat.
Proof.
  induction l as [|y l IH]; intros H; [cbn; lia|]. destruct l as [|z l].
  - cbn [separated length]. assert (Hy := H y (or_introl eq_refl)). destruct y; [congruence|cbn; lia].
  - rewrite separated_cons, app_length. cbn [length]. specialize (IH (fun x Hx => H x (or_intror Hx))). cbn [length] in IH. lia.
Qed.
Lemma length_terminated c (l : list (list rt)) : (length l <= length (terminated c l))%nat.
Proof. unfold terminated. induction l as [|y l IH]; [cbn; lia|]. cbn [flat_map length]. rewrite !app_length. cbn [length]. lia. Qed.
Lemma terminated_cons c x l : terminated c (x :: l) = x ++ c :: terminated c l.
Proof. unfold terminated. cbn [flat_map]. rewrite <- app_assoc. reflexivity. Qed.
Lemma terminated_app c a b : terminated c (a ++ b) = terminated c a ++ terminated c b.
Proof. unfold terminated. rewrite flat_map_app. reflexivity. Qed.

(** * Levels *)
Definition EL f := l_expr (lvl f).
Definition BL f := l_block (lvl f).
Definition AL f := l_arms (lvl f).
Lemma EL_S f : EL (S f) = p_full (EL f) (BL f).
Proof. reflexivity. Qed.
Lemma BL_S f l : BL (S f) l = p_stmts (EL f) (BL f) (AL f) (S (length l)) l.
Proof. reflexivity. Qed.
Lemma AL_S f l : AL (S f) l = p_arms (EL f) (BL f) (S (length l)) l.
Proof. reflexivity. Qed.
Definition pun f := p_unary (EL f) (BL f) true.
Definition ppo f := p_post (EL f).
Definition ptm f := p_terms (EL f) (BL f).
Definition pst f := p_stmts (EL f) (BL f) (AL f).

(** What can follow a path, and what ends a term. *)
Definition next (rest : list rt) : Prop := match rest with [] => True | P s :: _ => str_eqb [58; 58] s = false | _ => False end.
Inductive halt : list rt -> Prop :=
| h_nil : halt []
| h_comma r : halt (comma :: r)
| h_semi r : halt (semi :: r)
| h_plus r : halt (plus :: r)
| h_equals r : halt (equals :: r).
Inductive stop : list rt -> Prop :=
| st_nil : stop []
| st_comma r : stop (comma :: r)
| st_semi r : stop (semi :: r).
Lemma stop_halt r : stop r -> halt r.
Proof. intros []; constructor. Qed.
Lemma halt_next r : halt r -> next r.
Proof. intros []; (exact I || reflexivity). Qed.
Lemma post_halt E x r : halt r -> p_post E x r = Some (x, r).
Proof. intros []; reflexivity. Qed.

(** * Claims *)
Definition unary (ts : list rt) (x : rx) : Prop := forall f, (rsizes ts <= f)%nat -> forall rest, next rest -> pun f (ts ++ rest) = ppo f x rest.
Definition term1 (ts : list rt) (x : rx) : Prop := forall f, (rsizes ts <= f)%nat -> forall rest, halt rest -> pun f (ts ++ rest) = Some (x, rest).
Definition terms (ts : list rt) (l : list rx) : Prop := forall f, (rsizes ts <= f)%nat -> forall n rest, halt rest ->
  ptm f (length l + n) (ts ++ rest)
  = match rest with
    | c :: r => if is_p plus c then option_map (fun '(l', r') => (l ++ l', r')) (ptm f n r) else Some (l, rest)
    | [] => Some (l, [])
    end.
Definition arg (ts : list rt) (x : rx) : Prop := forall f, (rsizes ts <= f)%nat -> forall rest, stop rest -> p_full (EL f) (BL f) (ts ++ rest) = Some (x, rest).
Definition stm (ts : list rt) (ss : list xs) : Prop := forall f, (rsizes ts <= f)%nat -> forall n rest,
  pst f (length ss + n) (ts ++ rest) = option_map (app ss) (pst f n rest).
Definition blk (ts : list rt) (b : list xs) : Prop := forall f, (rsizes ts <= f)%nat -> pst f (S (length ts)) ts = Some b.

(** How expressions begin: not with [break]; and how statements begin that are expressions. *)
Definition hd1 (ts : list rt) : bool := match ts with [] => false | t :: _ => negb (is_w "break" t) end.
Definition hd2 (ts : list rt) : bool :=
  match ts with
  | [] => false
  | t :: _ => negb (is_w "break" t) && negb (is_p semi t) && negb (is_block t) && negb (is_w "let" t) && negb (is_w "loop" t) && negb (is_w "match" t)
  end.
Lemma hd2_hd1 ts : hd2 ts = true -> hd1 ts = true.
Proof. destruct ts as [|t ts]; [discriminate|]. cbn [hd1 hd2]. destruct (is_w "break" t); [discriminate|reflexivity]. Qed.
Lemma ident_not s k : RustTokens.is_ident s = true -> RustTokens.is_ident k = false -> str_eqb s k = false.
Proof. intros H Hk. destruct (str_eqb s k) eqn:E; [|reflexivity]. apply str_eqb_eq in E. subst. congruence. Qed.
Lemma hd2_ident s r : RustTokens.is_ident s = true -> hd2 (W s :: r) = true.
Proof. intros H. cbn [hd2 is_w is_p is_block semi]. rewrite !(ident_not s) by (assumption || reflexivity). reflexivity. Qed.
Lemma hd1_app a b : hd1 a = true -> hd1 (a ++ b) = true.
Proof. destruct a; [discriminate|]. trivial. Qed.
Lemma hd2_app a b : hd2 a = true -> hd2 (a ++ b) = true.
Proof. destruct a; [discriminate|]. trivial. Qed.
Lemma hd2_nonnil a : hd2 a = true -> a <> [].
Proof. destruct a; discriminate. Qed.
Lemma hd1_nonnil a : hd1 a = true -> a <> [].
Proof. destruct a; discriminate. Qed.

Lemma unary_term1 ts x : unary ts x -> term1 ts x.
Proof. intros H f Hf rest Hr. rewrite (H f Hf rest (halt_next _ Hr)). apply post_halt. exact Hr. Qed.
Lemma term1_ref ts x : term1 ts x -> term1 (amp :: ts) (XRef x).
Proof. intros H f Hf rest Hr. rsz. specialize (H f ltac:(lia) rest Hr). unfold pun in *. cbn [app p_unary]. change (is_p amp amp) with true. cbv iota. rewrite H. reflexivity. Qed.
Lemma term1_deref ts x : term1 ts x -> term1 (star :: ts) (XDeref x).
Proof.
  intros H f Hf rest Hr. rsz. specialize (H f ltac:(lia) rest Hr). unfold pun in *. cbn [app p_unary]. change (is_p amp star) with false. change (is_p star star) with true. cbv iota.
  rewrite H. reflexivity.
Qed.
Lemma term1_terms ts x : term1 ts x -> terms ts [x].
Proof.
  intros H f Hf n rest Hr. specialize (H f Hf rest Hr). unfold ptm, pun in *. cbn [length Nat.add p_terms]. rewrite H.
  destruct rest as [|c r]; [reflexivity|]. destruct (is_p plus c); reflexivity.
Qed.
Lemma terms_plus a la b lb : terms a la -> terms b lb -> terms (a ++ plus :: b) (la ++ lb).
Proof.
  intros Ha Hb f Hf n rest Hr. rsz. rewrite <- app_assoc. cbn [app]. rewrite app_length, <- Nat.add_assoc.
  rewrite (Ha f ltac:(lia) _ _ (h_plus _)). change (is_p plus plus) with true. cbv iota. rewrite (Hb f ltac:(lia) _ _ Hr).
  destruct rest as [|c r]; [reflexivity|]. destruct (is_p plus c); [|reflexivity]. destruct (ptm f n r) as [[l' r']|]; [|reflexivity]. cbn [option_map]. rewrite <- app_assoc. reflexivity.
Qed.
Lemma terms_arg ts l : terms ts l -> (length l <= length ts)%nat -> hd1 ts = true -> arg ts (mk_sum l).
Proof.
  intros H Hl Hh f Hf rest Hr. unfold p_full, p_sum. destruct ts as [|t ts]; [discriminate|]. cbn [hd1] in Hh. cbn [app]. destruct (is_w "break" t); [discriminate|].
  change (t :: ts ++ rest) with ((t :: ts) ++ rest). replace (S (length ((t :: ts) ++ rest))) with (length l + (S (length ((t :: ts) ++ rest)) - length l))%nat by (rewrite app_length; lia).
  change (p_terms (EL f) (BL f)) with (ptm f). rewrite (H f Hf _ rest (stop_halt _ Hr)). destruct Hr as [|r|r].
  - reflexivity.
  - change (is_p plus comma) with false. reflexivity.
  - change (is_p plus semi) with false. reflexivity.
Qed.
Lemma term1_arg ts x : term1 ts x -> hd1 ts = true -> arg ts x.
Proof. intros H Hh. apply (terms_arg ts [x]); [apply term1_terms; exact H| |exact Hh]. destruct ts; [discriminate|]. cbn. lia. Qed.

(** * Statements *)
Lemma stm_nil : stm [] [].
Proof. intros f _ n rest. cbn [length Nat.add app]. destruct (pst f n rest); reflexivity. Qed.
Lemma stm_app a sa b sb : stm a sa -> stm b sb -> stm (a ++ b) (sa ++ sb).
Proof.
  intros Ha Hb f Hf n rest. rsz. rewrite <- app_assoc, app_length, <- Nat.add_assoc, (Ha f ltac:(lia)), (Hb f ltac:(lia)).
  destruct (pst f n rest); [|reflexivity]. cbn [option_map]. rewrite <- app_assoc. reflexivity.
Qed.
Lemma stm_empty : stm [semi] [XEmpty].
Proof. intros f _ n rest. unfold pst. cbn [length Nat.add app p_stmts]. change (is_p semi semi) with true. reflexivity. Qed.
(** At the start of an expression statement. *)
Lemma pst_expr f n t r : hd2 (t :: r) = true -> pst f (S n) (t :: r) =
  match p_full (EL f) (BL f) (t :: r) with
  | Some (x, []) => Some [XTail x]
  | Some (x, s :: r') => if is_p semi s then option_map (cons (XSemi x)) (pst f n r') else None
  | None => None
  end.
Proof.
  intros H. cbn [hd2] in H. rewrite !andb_true_iff, !negb_true_iff in H. destruct H as [[[[[H1 H2] H3] H4] H5] H6].
  unfold pst. cbn [p_stmts]. rewrite H2, H3, H4, H5, H6. reflexivity.
Qed.
Lemma stm_expr ts x : arg ts x -> hd2 ts = true -> stm (ts ++ [semi]) [XSemi x].
Proof.
  intros H Hh f Hf n rest. rsz. specialize (H f ltac:(lia) (semi :: rest) (st_semi _)). rewrite <- app_assoc. cbn [app length Nat.add].
  destruct ts as [|t ts]; [discriminate|]. cbn [app] in *. rewrite pst_expr by exact Hh. rewrite H. change (is_p semi semi) with true. destruct (pst f n rest); reflexivity.
Qed.
Lemma stm_blk ts ss : stm ts ss -> (length ss <= length ts)%nat -> blk ts ss.
Proof.
  intros H Hl f Hf. replace (S (length ts)) with (length ss + S (length ts - length ss))%nat by lia. specialize (H f Hf (S (length ts - length ss)) []).
  rewrite app_nil_r in H. rewrite H. cbn. rewrite app_nil_r. reflexivity.
Qed.
(** Statements with an expression at the end. *)
Lemma stm_tail ts ss tl x : stm ts ss -> (length ss <= length ts)%nat -> arg tl x -> hd2 tl = true -> blk (ts ++ tl) (ss ++ [XTail x]).
Proof.
  intros H Hl Ha Hh f Hf. rsz. rewrite app_length. replace (S (length ts + length tl)) with (length ss + S (length ts + length tl - length ss))%nat by lia.
  rewrite (H f ltac:(lia)). specialize (Ha f ltac:(lia) [] st_nil). rewrite app_nil_r in Ha. destruct tl as [|t tl]; [discriminate|].
  rewrite pst_expr by exact Hh. rewrite Ha. reflexivity.
Qed.
Lemma tail_blk tl x : arg tl x -> hd2 tl = true -> blk tl [XTail x].
Proof. intros Ha Hh. apply (stm_tail [] [] tl x); [apply stm_nil|cbn; lia|exact Ha|exact Hh]. Qed.

(** * Calls and closures *)
Lemma p_list_sep E l xs : Forall2 (fun ts x => hd1 ts = true /\ forall rest, stop rest -> E (ts ++ rest) = Some (x, rest)) l xs ->
  forall n, (length l < n)%nat -> p_list E n (separated comma l) = Some xs.
Proof.
  induction 1 as [|ts x l xs [Hh Hx] H IH]; intros n Hn; (destruct n as [|n]; [lia|]).
  - reflexivity.
  - cbn [length] in Hn. destruct l as [|ts2 l].
    + inversion H; subst. cbn [separated p_list]. specialize (Hx [] st_nil). rewrite app_nil_r in Hx. destruct ts as [|t ts]; [discriminate|]. rewrite Hx. reflexivity.
    + rewrite separated_cons. cbn [p_list]. rewrite (Hx _ (st_comma _)). destruct ts as [|t ts]; [discriminate|]. cbn [app].
      change (is_p comma comma) with true. cbv iota. rewrite IH by lia. reflexivity.
Qed.
Lemma p_list_term E l xs : Forall2 (fun ts x => hd1 ts = true /\ forall rest, stop rest -> E (ts ++ rest) = Some (x, rest)) l xs ->
  forall n, (length l < n)%nat -> p_list E n (terminated comma l) = Some xs.
Proof.
  induction 1 as [|ts x l xs [Hh Hx] H IH]; intros n Hn; (destruct n as [|n]; [lia|]).
  - reflexivity.
  - cbn [length] in Hn. rewrite terminated_cons. cbn [p_list]. rewrite (Hx _ (st_comma _)). destruct ts as [|t ts]; [discriminate|]. cbn [app].
    change (is_p comma comma) with true. cbv iota. rewrite IH by lia. reflexivity.
Qed.
Definition args (l : list (list rt)) (xs : list rx) : Prop := Forall2 (fun ts x => hd1 ts = true /\ arg ts x) l xs.
Lemma args_nonnil l xs : args l xs -> forall ts, In ts l -> ts <> [].
Proof. induction 1 as [|ts x l xs [Hh _] H IH]; intros y Hy; [destruct Hy|]. destruct Hy as [<-|Hy]; [apply hd1_nonnil; exact Hh|apply IH; exact Hy]. Qed.
Lemma args_level l xs f : args l xs -> (forall ts, In ts l -> (rsizes ts <= f)%nat) ->
  Forall2 (fun ts x => hd1 ts = true /\ forall rest, stop rest -> EL (S f) (ts ++ rest) = Some (x, rest)) l xs.
Proof.
  intros H. induction H as [|ts x l xs [Hh Ha] H IH]; intros Hs; constructor.
  - split; [exact Hh|]. intros rest Hr. rewrite EL_S. apply Ha; [apply Hs; left; reflexivity|exact Hr].
  - apply IH. intros y Hy. apply Hs. right. exact Hy.
Qed.
Lemma args_sep l xs : args l xs -> forall f, (rsizes (separated comma l) < f)%nat -> p_args (EL f) (separated comma l) = Some xs.
Proof.
  intros H f Hf. destruct f as [|f]; [lia|]. unfold p_args. apply p_list_sep.
  - apply args_level; [exact H|]. intros ts Hts. pose proof (rsizes_separated comma l ts Hts). lia.
  - pose proof (length_separated comma l (args_nonnil _ _ H)). lia.
Qed.
Lemma args_term l xs : args l xs -> forall f, (rsizes (terminated comma l) < f)%nat -> p_args (EL f) (terminated comma l) = Some xs.
Proof.
  intros H f Hf. destruct f as [|f]; [lia|]. unfold p_args. apply p_list_term.
  - apply args_level; [exact H|]. intros ts Hts. pose proof (rsizes_terminated comma l ts Hts). lia.
  - pose proof (length_terminated comma l). lia.
Qed.

(** A path, followed by what the claim is about. *)
Definition pathy (p : list rt) : Prop := (exists t r, p = t :: r /\ match t with W s => RustTokens.segment_name true s = true | P s => s = [58; 58] | _ => False end)
  /\ forall rest, match rest with P s :: _ => str_eqb [58; 58] s = false | _ => True end -> p_path (p ++ rest) = Some (p, rest).
Lemma pathy_unary_atom p E B s r : pathy p -> match r with P s :: _ => str_eqb [58; 58] s = false | G Brc _ :: _ => s = false | _ => True end ->
  p_unary E B s (p ++ r) = p_post E (XPath p) r.
Proof.
  intros [Ht Hp] Hr. destruct Ht as (t & p' & -> & Ht). specialize (Hp r). cbn [app p_unary] in *.
  assert (Hr' : match r with P s :: _ => str_eqb [58; 58] s = false | _ => True end) by (destruct r as [|[| | |[]]]; exact I || exact Hr).
  specialize (Hp Hr'). assert (Ht' : is_p amp t = false /\ is_p star t = false /\ is_p bar t = false).
  { destruct t as [w| c | |]; try contradiction; [repeat split|]. subst c. repeat split. }
  destruct Ht' as (H1 & H2 & H3). rewrite H1, H2.
  assert (Ha : p_atom E B s (t :: p' ++ r) = Some (XPath (t :: p'), r)).
  { unfold p_atom. destruct t as [w| c | |]; try contradiction; rewrite H3, Hp; (destruct s; [|reflexivity]); destruct r as [|[| | |[]]]; try reflexivity; discriminate. }
  rewrite Ha. reflexivity.
Qed.

(** * Paths *)
Definition nosep (rest : list rt) : Prop := match rest with P s :: _ => str_eqb [58; 58] s = false | _ => True end.
Lemma nosep_is c r : nosep (c :: r) -> is_p sep2 c = false.
Proof. destruct c; intros H; try reflexivity. exact H. Qed.
Definition segs (l : list str) : list rt := separated sep2 (map (fun s => [W s]) l).
Lemma segs_cons s s' l : segs (s :: s' :: l) = W s :: sep2 :: segs (s' :: l).
Proof. reflexivity. Qed.
Lemma segments_plain l : forall s first n rest, RustTokens.segment_name first s = true -> forallb (RustTokens.segment_name false) l = true -> (length l < n)%nat -> nosep rest ->
  p_segments n first (segs (s :: l) ++ rest) = Some (segs (s :: l), rest).
Proof.
  induction l as [|s' l IH]; intros s first n rest Hs Hl Hn Hr; (destruct n as [|n]; [lia|]).
  - cbn [segs map separated app p_segments]. rewrite Hs. destruct rest as [|c r]; [reflexivity|]. rewrite (nosep_is _ _ Hr). reflexivity.
  - rewrite segs_cons. cbn [app p_segments]. rewrite Hs. change (is_p sep2 sep2) with true. cbv iota. cbn [forallb] in Hl. apply andb_true_iff in Hl as [Hs' Hl].
    cbn [length] in Hn. specialize (IH s' false n rest Hs' Hl ltac:(lia) Hr). destruct l as [|s2 l].
    + cbn [segs map separated app] in *. change (is_p lt (W s')) with false. cbv iota. rewrite IH. reflexivity.
    + rewrite segs_cons in *. cbn [app] in *. change (is_p lt (W s')) with false. cbv iota. rewrite IH. reflexivity.
Qed.
Lemma segs_length s l : (length l < length (segs (s :: l)))%nat.
Proof. revert s. induction l as [|s' l IH]; intros s; [cbn; lia|]. rewrite segs_cons. cbn [length]. specialize (IH s'). lia. Qed.
Lemma segs_head s l : exists r, segs (s :: l) = W s :: r.
Proof. destruct l; eexists; reflexivity. Qed.
Lemma pathy_rel s l : RustTokens.segment_name true s = true -> forallb (RustTokens.segment_name false) l = true -> pathy (segs (s :: l)).
Proof.
  intros Hs Hl. destruct (segs_head s l) as (r & Hr). split.
  - exists (W s), r. split; [exact Hr|exact Hs].
  - intros rest Hrest. unfold p_path. rewrite Hr at 1. cbn [app]. change (is_p sep2 (W s)) with false. cbv iota. apply segments_plain; try assumption.
    rewrite app_length. pose proof (segs_length s l). lia.
Qed.
Lemma pathy_abs s l : RustTokens.segment_name false s = true -> forallb (RustTokens.segment_name false) l = true -> pathy (sep2 :: segs (s :: l)).
Proof.
  intros Hs Hl. split.
  - eexists _, _. split; [reflexivity|]. reflexivity.
  - intros rest Hrest. unfold p_path. cbn [app]. change (is_p sep2 sep2) with true. cbv iota. rewrite segments_plain; try assumption; [reflexivity|].
    cbn [length]. rewrite app_length. pose proof (segs_length s l). lia.
Qed.
Lemma pathy_var x : RustTokens.is_ident x = true -> pathy [W x].
Proof. intros H. apply (pathy_rel x []); [|reflexivity]. unfold RustTokens.segment_name. rewrite H. reflexivity. Qed.
Lemma pathy_buf f : RustTokens.segment_name false f = true -> pathy (mabo_buf ++ [W f]).
Proof. intros H. apply (pathy_abs (tx "mabo") [tx "buf"; f]); [reflexivity|]. cbn [forallb]. rewrite H. reflexivity. Qed.

(** A path alone, and a path with arguments. *)
Lemma pathy_unary p : pathy p -> unary p (XPath p).
Proof. intros H f _ rest Hr. unfold pun, ppo. apply pathy_unary_atom; [exact H|]. destruct rest as [|[| | |]]; try exact I; try exact Hr; try destruct Hr. Qed.
Lemma call_unary p l xs : pathy p -> (forall f, (rsizes l < f)%nat -> p_args (EL f) l = Some xs) -> unary (p ++ [G Par l]) (XCall (XPath p) xs).
Proof.
  intros H Ha f Hf rest Hr. rsz. unfold pun, ppo. rewrite <- app_assoc. cbn [app]. rewrite (pathy_unary_atom p _ _ _ _ H) by exact I. cbn [p_post]. rewrite Ha by lia. reflexivity.
Qed.
Lemma unary_try ts x : unary ts x -> unary (ts ++ [quest]) (XTry x).
Proof.
  intros H f Hf rest Hr. rsz. rewrite <- app_assoc. cbn [app]. rewrite (H f ltac:(lia)) by reflexivity. unfold ppo. cbn [p_post quest]. reflexivity.
Qed.
Lemma unary_method ts x m l xs : unary ts x -> RustTokens.is_ident m = true -> (forall f, (rsizes l < f)%nat -> p_args (EL f) l = Some xs) ->
  unary (ts ++ [dot; W m; G Par l]) (XMethod x m xs).
Proof.
  intros H Hm Ha f Hf rest Hr. rsz. rewrite <- app_assoc. cbn [app]. rewrite (H f ltac:(lia)) by reflexivity. unfold ppo. cbn [p_post].
  change (is_p quest dot) with false. change (is_p dot dot) with true. cbv iota. rewrite Hm, Ha by lia. reflexivity.
Qed.
Lemma unary_field ts x m : unary ts x -> RustTokens.is_ident m = true -> unary (ts ++ [dot; W m]) (XField x m).
Proof.
  intros H Hm f Hf rest Hr. rsz. rewrite <- app_assoc. cbn [app]. rewrite (H f ltac:(lia)) by reflexivity. unfold ppo. cbn [p_post].
  change (is_p quest dot) with false. change (is_p dot dot) with true. cbv iota. rewrite Hm. destruct rest as [|[| | |]]; try reflexivity. destruct Hr.
Qed.
Lemma dec_digits n : forallb digit (dec_str n) = true.
Proof.
  unfold dec_str. generalize (S (N.to_nat (N.log2 n))) as k. intros k. assert (H : forallb digit [] = true) by reflexivity. revert H. generalize (@nil N) as acc. revert n.
  induction k as [|k IH]; intros n acc Ha; [exact Ha|]. cbn [dec_aux]. assert (Hd : forallb digit (48 + n mod 10 :: acc) = true).
  { cbn [forallb]. rewrite Ha, andb_true_r. unfold digit. assert (n mod 10 < 10) by (apply N.mod_lt; discriminate). rewrite andb_true_iff, !N.leb_le. lia. }
  destruct (n <? 10); [exact Hd|apply IH; exact Hd].
Qed.
Lemma unary_proj ts x n : unary ts x -> unary (ts ++ [dot; num n]) (XField x (dec_str n)).
Proof.
  intros H f Hf rest Hr. rsz. rewrite <- app_assoc. cbn [app]. rewrite (H f ltac:(lia)) by reflexivity. unfold ppo. cbn [p_post num].
  change (is_p quest dot) with false. change (is_p dot dot) with true. cbv iota. rewrite dec_digits. reflexivity.
Qed.
Lemma lit_unary s : unary [Q s] (XLit s).
Proof. intros f _ rest _. reflexivity. Qed.
Lemma no_args f : p_args (EL f) [] = Some [].
Proof. reflexivity. Qed.

(** * Closures *)
Lemma params_read ps r : forallb RustTokens.is_ident ps = true -> p_params (separated comma (map (fun x => [W x]) ps) ++ bar :: r) = Some (ps, r).
Proof.
  induction ps as [|x ps IH]; intros H; [reflexivity|]. cbn [forallb] in H. apply andb_true_iff in H as [Hx H]. specialize (IH H). destruct ps as [|y ps].
  - cbn [map separated app p_params]. rewrite Hx. reflexivity.
  - cbn [map] in *. rewrite separated_cons, <- app_assoc. cbn [app p_params]. rewrite Hx. change (is_p comma comma) with true. cbv iota.
    cbn [app] in IH. rewrite IH. reflexivity.
Qed.
Lemma clos_unary ps body b : forallb RustTokens.is_ident ps = true -> blk body b -> unary (clos ps body) (XClosure ps b).
Proof.
  intros Hp Hb f Hf rest Hr. unfold clos in *. rsz. unfold pun, ppo. cbn [app p_unary]. change (is_p amp bar) with false. change (is_p star bar) with false. cbv iota.
  cbn [p_atom]. unfold p_atom. cbn [bar]. change (is_p (P [124]) (P [124])) with true. change (is_p bar (P [124])) with true. cbv iota. rewrite <- app_assoc. cbn [app]. fold bar.
  rewrite (params_read ps _ Hp). destruct f as [|f]; [lia|]. rewrite BL_S. fold (pst f). rewrite Hb by lia. reflexivity.
Qed.
Lemma clos_arg ps body b : forallb RustTokens.is_ident ps = true -> blk body b -> hd1 (clos ps body) = true /\ arg (clos ps body) (XClosure ps b).
Proof. intros Hp Hb. split; [reflexivity|]. apply term1_arg; [|reflexivity]. apply unary_term1, clos_unary; assumption. Qed.

(** * Names of values *)
Section Means.
Variable low : sty -> option ty.
Variable text : sty -> list rt.
Notation means := (means low text).
Notation block := (block low text).
Notation stmts := (stmts low text).

Inductive core : list rt -> rx -> expr -> Prop :=
| c_var x : RustTokens.is_ident x = true -> core [W x] (XPath [W x]) (EVar x)
| c_get ts x e : core ts x e -> core (ts ++ get_) (XMethod x (tx "get") []) (EGet e)
| c_proj i ts x e : core ts x e -> core (ts ++ [dot; num (N.of_nat i)]) (XField x (dec_str (N.of_nat i))) (EProj i e).
Inductive nm : list rt -> rx -> expr -> Prop :=
| n_core ts x e : core ts x e -> nm ts x e
| n_ref ts x e : nm ts x e -> nm (amp :: ts) (XRef x) (ERef e).
Lemma core_reads ts x e : core ts x e -> unary ts x /\ means x e /\ (forall g, post g e = g e) /\ hd2 ts = true.
Proof.
  induction 1 as [x Hx|ts x e H (IH1 & IH2 & IH3 & IH4)|i ts x e H (IH1 & IH2 & IH3 & IH4)].
  - split; [apply pathy_unary, pathy_var; exact Hx|]. split; [constructor|]. split; [reflexivity|apply hd2_ident; exact Hx].
  - split; [apply (unary_method ts x (tx "get") [] []); [exact IH1|reflexivity|intros; apply no_args]|]. split; [constructor; exact IH2|]. split; [reflexivity|apply hd2_app; exact IH4].
  - split; [apply unary_proj; exact IH1|]. split; [constructor; exact IH2|]. split; [reflexivity|apply hd2_app; exact IH4].
Qed.
Lemma nm_reads ts x e : nm ts x e -> term1 ts x /\ means x e /\ hd2 ts = true.
Proof.
  induction 1 as [ts x e H|ts x e H (IH1 & IH2 & IH3)].
  - destruct (core_reads _ _ _ H) as (H1 & H2 & _ & H4). auto using unary_term1.
  - split; [apply term1_ref; exact IH1|]. split; [constructor; exact IH2|reflexivity].
Qed.
Lemma nm_arg ts x e : nm ts x e -> hd1 ts = true /\ arg ts x.
Proof. intros H. destruct (nm_reads _ _ _ H) as (H1 & _ & H3). apply hd2_hd1 in H3. auto using term1_arg. Qed.
Lemma nm_var x : RustTokens.is_ident x = true -> nm [W x] (XPath [W x]) (EVar x).
Proof. intros H. constructor. constructor. exact H. Qed.
(** A suffix goes below the prefix operators. *)
Lemma nm_suffix sf g h : (forall ts x e, core ts x e -> term1 (ts ++ sf) (g x) /\ means (g x) (h e)) ->
  forall ts x e, nm ts x e -> exists x', term1 (ts ++ sf) x' /\ means x' (post h e).
Proof.
  intros Hs. induction 1 as [ts x e H|ts x e H (x' & IH1 & IH2)].
  - destruct (core_reads _ _ _ H) as (_ & _ & Hp & _). rewrite Hp. exists (g x). apply Hs. exact H.
  - exists (XRef x'). split; [apply (term1_ref (ts ++ sf)); exact IH1|]. constructor. exact IH2.
Qed.
Lemma nm_get ts x e : nm ts x e -> exists x', nm (ts ++ get_) x' (post EGet e).
Proof.
  induction 1 as [ts x e H|ts x e H (x' & IH)].
  - destruct (core_reads _ _ _ H) as (_ & _ & Hp & _). rewrite Hp. eexists. constructor. constructor. exact H.
  - exists (XRef x'). apply (n_ref (ts ++ get_)). exact IH.
Qed.
Lemma nm_member ts x e i : nm ts x e -> exists x', nm (member ts i) x' (ERef (post (EProj i) e)).
Proof.
  intros H. assert (Hp : exists x', nm (ts ++ [dot; num (N.of_nat i)]) x' (post (EProj i) e)).
  { induction H as [ts x e H|ts x e H (x' & IH)].
    - destruct (core_reads _ _ _ H) as (_ & _ & Hp & _). rewrite Hp. eexists. constructor. constructor. exact H.
    - exists (XRef x'). apply (n_ref (ts ++ _)). exact IH. }
  destruct Hp as (x' & Hp). exists (XRef x'). unfold member. apply n_ref. exact Hp.
Qed.
Lemma nm_as_ref ts x e : nm ts x e -> exists x', term1 (ts ++ as_ref_) x' /\ means x' (post EAsRef e).
Proof.
  apply (nm_suffix as_ref_ (fun x => XMethod x (tx "as_ref") []) EAsRef). intros ts0 x0 e0 H. destruct (core_reads _ _ _ H) as (H1 & H2 & _).
  split; [|constructor; exact H2]. apply unary_term1. apply (unary_method ts0 x0 (tx "as_ref") [] []); [exact H1|reflexivity|intros; apply no_args].
Qed.
Lemma nm_size t ts x e : nm ts x e -> exists x', term1 (ts ++ [dot; w "size"; G Par []]) x' /\ means x' (post (ESizeM t) e).
Proof.
  apply (nm_suffix _ (fun x => XMethod x (tx "size") []) (ESizeM t)). intros ts0 x0 e0 H. destruct (core_reads _ _ _ H) as (H1 & H2 & _).
  split; [|constructor; exact H2]. apply unary_term1. apply (unary_method ts0 x0 (tx "size") [] []); [exact H1|reflexivity|intros; apply no_args].
Qed.
Lemma var_arg x : RustTokens.is_ident x = true -> hd1 [W x] = true /\ arg [W x] (XPath [W x]).
Proof. intros H. apply (nm_arg _ _ (EVar x)). apply nm_var. exact H. Qed.
Lemma nm_encode t ts x e : nm ts x e -> exists x', term1 (ts ++ [dot; w "encode"; G Par [W w_]]) x' /\ means x' (post (fun e => EEncodeM t e (EVar x_w)) e).
Proof.
  apply (nm_suffix _ (fun x => XMethod x (tx "encode") [XPath [W w_]]) (fun e => EEncodeM t e (EVar x_w))). intros ts0 x0 e0 H. destruct (core_reads _ _ _ H) as (H1 & H2 & _).
  split; [|constructor; [exact H2|constructor]]. apply unary_term1. apply (unary_method ts0 x0 (tx "encode") _ _); [exact H1|reflexivity|].
  apply (args_sep [[W w_]]). constructor; [apply var_arg; reflexivity|constructor].
Qed.

(** * Calls of the runtime *)
Lemma buf_unary f l xs : RustTokens.segment_name false f = true -> args l xs -> unary (buf f l) (call_ f xs).
Proof.
  intros Hf Ha. unfold buf, call_. change (q "::mabo::buf::") with mabo_buf.
  change (mabo_buf ++ [W f; G Par (separated comma l)]) with ((mabo_buf ++ [W f]) ++ [G Par (separated comma l)]).
  apply call_unary; [apply pathy_buf; exact Hf|]. apply args_sep. exact Ha.
Qed.
Lemma fun_segment f : RustTokens.segment_name false (fun_name f) = true.
Proof. destruct f; try reflexivity; try (destruct b; reflexivity); (destruct p as [ | | |w|w| | ]; try reflexivity; destruct w; reflexivity). Qed.
(** The words of the generator and of the specification. *)
Lemma word_scalar p : is_scalar p = true -> forall bc, exists sc, scalar_of (Lower.lower_prim p) = Some sc /\ word bc p = scalar_word sc.
Proof. intros H bc. destruct p; try discriminate H; eexists; (split; [reflexivity|reflexivity]). Qed.

(** * Sizes *)
Definition terms_of (e : expr) : list expr := match e with ESum l => l | _ => [e] end.
Lemma sum_of_terms es : sum_of es = ESum (flat_map terms_of es).
Proof. reflexivity. Qed.
Lemma means_terms l e : Forall2 means l (terms_of e) -> means (mk_sum l) e.
Proof.
  intros H. assert (Hl : forall es, Forall2 means l es -> means (mk_sum l) (ESum es)).
  { intros es He. destruct l as [|x [|y l]]; cbn [mk_sum]; [constructor; exact He| |constructor; exact He]. inversion He as [|? e1 ? ? Hx Hn]; subst. inversion Hn; subst. constructor. exact Hx. }
  assert (H1 : forall e1, Forall2 means l [e1] -> means (mk_sum l) e1).
  { intros e1 He. inversion He as [|y ? ? ? Hx Hn]; subst. inversion Hn; subst. exact Hx. }
  destruct e; cbn [terms_of] in H; try (apply H1; exact H). apply Hl. exact H.
Qed.
Definition sized (ts : list rt) (l : list rx) (e : expr) : Prop := terms ts l /\ Forall2 means l (terms_of e) /\ (length l <= length ts)%nat /\ hd2 ts = true.
Lemma sized_one ts x e : term1 ts x -> means x e -> hd2 ts = true -> (forall l, e <> ESum l) -> sized ts [x] e.
Proof.
  intros H Hm Hh He. split; [apply term1_terms; exact H|]. split; [|split; [destruct ts; [discriminate|cbn; lia]|exact Hh]].
  destruct e; cbn [terms_of]; try (constructor; [exact Hm|constructor]). destruct (He es eq_refl).
Qed.
Lemma sized_blk ts l e : sized ts l e -> exists b, blk ts b /\ block b e.
Proof.
  intros (H1 & H2 & H3 & H4). exists [XTail (mk_sum l)]. split; [apply tail_blk; [apply terms_arg; [exact H1|exact H3|apply hd2_hd1; exact H4]|exact H4]|].
  constructor. apply means_terms. exact H2.
Qed.
Lemma sized_call f l xs es : args l xs -> Forall2 means xs es -> sized (buf (fun_name f) l) [call_ (fun_name f) xs] (ECall f es).
Proof. intros Ha Hm. apply sized_one; [apply unary_term1, buf_unary; [apply fun_segment|exact Ha]|constructor; exact Hm|reflexivity|discriminate]. Qed.
(** A closure over a sized value. *)
Lemma sized_clos ps ts l e : forallb RustTokens.is_ident ps = true -> sized ts l e -> exists x, (hd1 (clos ps ts) = true /\ arg (clos ps ts) x) /\ means x (EClos ps e).
Proof. intros Hp H. destruct (sized_blk _ _ _ H) as (b & Hb & Hm). exists (XClosure ps b). split; [apply clos_arg; assumption|]. constructor. exact Hm. Qed.

Variable bc : bool.
Let bt : bytes_type := if bc then BBytes else BVecU8.
Variable look : list str -> str -> option nat.
Variable params : list str.
Notation lower := (Lower.lower_type look params).
Notation size_of := (RustFile.size_of bc).
Notation gen_size := (gen_size bt).

Lemma term1_deref_nm ts x e : nm ts x e -> (hd1 (star :: ts) = true /\ arg (star :: ts) (XDeref x)) /\ means (XDeref x) (EDeref e).
Proof. intros H. destruct (nm_reads _ _ _ H) as (H1 & H2 & _). split; [split; [reflexivity|]|constructor; exact H2]. apply term1_arg; [|reflexivity]. apply term1_deref. exact H1. Qed.

Definition mapi {A C} (f : nat -> A -> C) := fix go (i : nat) (l : list A) : list C := match l with [] => [] | t :: l' => f i t :: go (S i) l' end.
Lemma sized_nonnil ts l e : sized ts l e -> ts <> [].
Proof. intros (_ & _ & _ & H). apply hd2_nonnil. exact H. Qed.
Lemma sized_sum tss es : Forall2 (fun ts e => exists l, sized ts l e) tss es -> tss <> [] -> exists l, terms (separated plus tss) l /\ Forall2 means l (flat_map terms_of es)
   /\ (length l <= length (separated plus tss))%nat /\ hd2 (separated plus tss) = true.
Proof.
  induction 1 as [|ts e tss es (l & H1 & H2 & H3 & H4) H IH]; intros Hne; [congruence|]. destruct tss as [|ts2 tss].
  - inversion H; subst. cbn [separated flat_map]. rewrite app_nil_r. exists l. auto.
  - destruct (IH ltac:(discriminate)) as (l' & G1 & G2 & G3 & _). exists (l ++ l'). rewrite separated_cons. split; [apply terms_plus; assumption|]. split; [cbn [flat_map]; apply Forall2_app; assumption|].
    split; [rewrite !app_length; cbn [length]; lia|apply hd2_app; exact H4].
Qed.
Definition size_claim (t : sty) : Prop := forall u name x e, code_type_ok t = true -> lower t = Some u -> nm name x e ->
  exists l, sized (size_of t name) l (gen_size u e).
Lemma size_vec_like f t u name x e : size_claim t -> code_type_ok t = true -> lower t = Some u -> nm name x e ->
  exists l, sized (buf (fun_name f) [name; clos [v_] (size_of t [W v_])]) l (ECall f [e; EClos [x_v] (gen_size u (EVar x_v))]).
Proof.
  intros IH Hc Hl Hn. destruct (IH u [W v_] _ _ Hc Hl (nm_var v_ eq_refl)) as (l & Hs). destruct (sized_clos [v_] _ _ _ eq_refl Hs) as (y & Hy & Hm).
  destruct (nm_reads _ _ _ Hn) as (_ & Hx & _). eexists. apply sized_call; [constructor; [apply (nm_arg _ _ _ Hn)|constructor; [exact Hy|constructor]]|].
  constructor; [exact Hx|constructor; [exact Hm|constructor]].
Qed.
Lemma size_members nme x e ts us : (forall t, In t ts -> size_claim t) -> forallb code_type_ok ts = true -> all_opt lower ts = Some us -> nm nme x e -> forall i,
  Forall2 (fun ts e => exists l, sized ts l e) (mapi (fun i t => size_of t (member nme i)) i ts) (mapi (fun i u => gen_size u (ERef (post (EProj i) e))) i us).
Proof.
  intros IH Hc Hl Hn. revert us Hl. induction ts as [|t ts IHts]; intros us Hl i; cbn [all_opt] in Hl.
  - injection Hl as <-. constructor.
  - cbn [forallb] in Hc. apply andb_true_iff in Hc as [Hct Hc]. destruct (lower t) as [u|] eqn:E; [|discriminate]. destruct (all_opt lower ts) as [us'|]; [|discriminate]. injection Hl as <-.
    cbn [mapi]. constructor.
    + destruct (nm_member _ _ _ i Hn) as (x' & Hx). exact (IH t (or_introl eq_refl) u _ _ _ Hct E Hx).
    + apply IHts; [intros t' Ht'; apply IH; right; exact Ht'|exact Hc|reflexivity].
Qed.
Lemma all_opt_len {A C} (f : A -> option C) l l' : all_opt f l = Some l' -> length l' = length l.
Proof. revert l'. induction l as [|a l IH]; intros l' H; cbn [all_opt] in H; [injection H as <-; reflexivity|]. destruct (f a); [|discriminate]. destruct (all_opt f l) as [r|]; [|discriminate]. injection H as <-. cbn [length]. f_equal. apply IH. reflexivity. Qed.
Lemma mapi_nonnil {A C} (f : nat -> A -> C) i l : l <> [] -> mapi f i l <> [].
Proof. destruct l; [congruence|discriminate]. Qed.
Lemma size_reads t : size_claim t.
Proof.
  induction t as [p|t IH|k v IHk IHv|t IH|t IH|t IH|ts IH|t n IH|path name gs IH] using LowerProofs.sty_ind2; intros u nme x e Hc Hl Hn.
  - cbn [Lower.lower_type] in Hl. injection Hl as <-. cbn [RustFile.size_of]. destruct (nm_reads _ _ _ Hn) as (_ & Hx & _).
    destruct (term1_deref_nm _ _ _ Hn) as [Hd Hdm].
    assert (Hs : forall f, args [if is_scalar p then star :: nme else nme] [if is_scalar p then XDeref x else x] -> fun_name f = tx "size_" ++ word bc p ->
       exists l, sized (buf (tx "size_" ++ word bc p) [if is_scalar p then star :: nme else nme]) l (ECall f [if is_scalar p then EDeref e else e])).
    { intros f Ha <-. eexists. apply sized_call; [exact Ha|]. constructor; [|constructor]. destruct (is_scalar p); assumption. }
    assert (Ha : args [if is_scalar p then star :: nme else nme] [if is_scalar p then XDeref x else x]).
    { constructor; [|constructor]. destruct (is_scalar p); [exact Hd|apply (nm_arg _ _ _ Hn)]. }
    destruct p; cbn [is_scalar] in *; cbn [Lower.lower_prim RustCode.gen_size]; (apply Hs; [exact Ha|]); try reflexivity; unfold bt; destruct bc; reflexivity.
  - cbn [code_type_ok] in Hc. cbn [Lower.lower_type] in Hl. destruct (lower t) as [u'|] eqn:E; [|discriminate]. injection Hl as <-. exact (size_vec_like RSizeVec _ _ _ _ _ IH Hc E Hn).
  - cbn [code_type_ok] in Hc. apply andb_true_iff in Hc as [Hck Hcv]. cbn [Lower.lower_type] in Hl. destruct (lower k) as [k'|] eqn:Ek; [|discriminate]. destruct (lower v) as [v'|] eqn:Ev; [|discriminate]. injection Hl as <-.
    destruct (IHk k' [W k_] _ _ Hck Ek (nm_var k_ eq_refl)) as (lk & Hk). destruct (sized_clos [k_] _ _ _ eq_refl Hk) as (yk & Hyk & Hmk).
    destruct (IHv v' [W v_] _ _ Hcv Ev (nm_var v_ eq_refl)) as (lv & Hv). destruct (sized_clos [v_] _ _ _ eq_refl Hv) as (yv & Hyv & Hmv).
    destruct (nm_reads _ _ _ Hn) as (_ & Hx & _). cbn [RustFile.size_of RustCode.gen_size]. eexists. apply (sized_call RSizeMap).
    + constructor; [apply (nm_arg _ _ _ Hn)|]. constructor; [exact Hyk|]. constructor; [exact Hyv|constructor].
    + constructor; [exact Hx|]. constructor; [exact Hmk|]. constructor; [exact Hmv|constructor].
  - cbn [code_type_ok] in Hc. cbn [Lower.lower_type] in Hl. destruct (lower t) as [u'|] eqn:E; [|discriminate]. injection Hl as <-. exact (size_vec_like RSizeSet _ _ _ _ _ IH Hc E Hn).
  - cbn [code_type_ok] in Hc. cbn [Lower.lower_type] in Hl. destruct (lower t) as [u'|] eqn:E; [|discriminate]. injection Hl as <-.
    destruct (IH u' [W v_] _ _ Hc E (nm_var v_ eq_refl)) as (l & Hs). destruct (sized_clos [v_] _ _ _ eq_refl Hs) as (y & Hy & Hm).
    destruct (nm_as_ref _ _ _ Hn) as (x' & Hx & Hxm). cbn [RustFile.size_of RustCode.gen_size]. eexists. apply (sized_call RSizeOption).
    + destruct (nm_reads _ _ _ Hn) as (_ & _ & Hh). apply hd2_hd1 in Hh. constructor; [split; [apply hd1_app; exact Hh|apply term1_arg; [exact Hx|apply hd1_app; exact Hh]]|]. constructor; [exact Hy|constructor].
    + constructor; [exact Hxm|]. constructor; [exact Hm|constructor].
  - cbn [code_type_ok] in Hc. apply andb_true_iff in Hc as [Hz Hc]. cbn [Lower.lower_type] in Hl. destruct (lower t) as [u'|] eqn:E; [|discriminate]. injection Hl as <-.
    destruct (nm_get _ _ _ Hn) as (x' & Hg). destruct (nm_reads _ _ _ Hg) as (_ & Hgm & _). pose proof (nm_arg _ _ _ Hg) as Hga.
    assert (Hcall : forall f, exists l, sized (buf (fun_name f) [nme ++ get_]) l (ECall f [post EGet e])).
    { intros f. eexists. apply sized_call; [constructor; [exact Hga|constructor]|]. constructor; [exact Hgm|constructor]. }
    destruct t as [p| | | | | | | |]; try discriminate Hz.
    + destruct p; try discriminate Hz; cbn [Lower.lower_type] in E; injection E as <-; cbn [RustFile.size_of is_scalar Lower.lower_prim];
        try (match goal with |- context [TNonZero ?t] => match eval cbv in (scalar_of t) with Some ?s => apply (Hcall (RSize s)) end end);
        (apply (IH _ _ _ _ Hc eq_refl Hg)).
    + cbn [Lower.lower_type] in E. destruct (lower t) as [u2|] eqn:E2; [|discriminate]. injection E as <-. apply (fun H => IH (TVec u2) _ _ _ Hc H Hg). cbn [Lower.lower_type]; rewrite E2; reflexivity.
    + cbn [Lower.lower_type] in E. destruct (lower t1) as [u2|] eqn:E2; [|discriminate]. destruct (lower t2) as [u3|] eqn:E3; [|discriminate]. injection E as <-.
      apply (fun H => IH (TMap u2 u3) _ _ _ Hc H Hg). cbn [Lower.lower_type]; rewrite E2, E3; reflexivity.
    + cbn [Lower.lower_type] in E. destruct (lower t) as [u2|] eqn:E2; [|discriminate]. injection E as <-. apply (fun H => IH (TSet u2) _ _ _ Hc H Hg). cbn [Lower.lower_type]; rewrite E2; reflexivity.
  - cbn [code_type_ok] in Hc. apply andb_true_iff in Hc as [Hlen Hc]. cbn [Lower.lower_type] in Hl. destruct (all_opt lower ts) as [us|] eqn:E; [|discriminate]. injection Hl as <-.
    assert (Hne : ts <> []) by (destruct ts; [discriminate Hlen|discriminate]).
    destruct (sized_sum _ _ (size_members nme x e ts us IH Hc E Hn 0%nat) (mapi_nonnil _ _ _ Hne)) as (l & H1 & H2 & H3 & H4). exists l.
    assert (Hg : gen_size (TTuple us) e = sum_of (mapi (fun i u => gen_size u (ERef (post (EProj i) e))) 0%nat us)).
    { cbn [RustCode.gen_size]. unfold tuple_len_ok. rewrite (all_opt_len _ _ _ E), Hlen. reflexivity. }
    rewrite Hg, sum_of_terms. split; [exact H1|]. split; [exact H2|]. split; [exact H3|exact H4].
  - cbn [code_type_ok] in Hc. cbn [Lower.lower_type] in Hl. destruct (lower t) as [u'|] eqn:E; [|discriminate]. injection Hl as <-. exact (size_vec_like RSizeArray _ _ _ _ _ IH Hc E Hn).
  - destruct (nm_size u _ _ _ Hn) as (x' & Hx & Hm). cbn [RustFile.size_of]. assert (E : gen_size u e = post (ESizeM u) e).
    { cbn [Lower.lower_type] in Hl. destruct (all_opt lower gs) as [us|]; [|discriminate]. unfold Lower.lower_ref in Hl.
      destruct path as [|s path]; [destruct (Lower.position name params); [destruct us; [injection Hl as <-; reflexivity|discriminate]|]|]; (destruct (look _ name); [injection Hl as <-; reflexivity|discriminate]). }
    rewrite E. exists [x']. apply sized_one; [exact Hx|exact Hm| |].
    + destruct (nm_reads _ _ _ Hn) as (_ & _ & Hh). apply hd2_app. exact Hh.
    + destruct Hn as [? ? ? Hco|]; [|discriminate]. destruct (core_reads _ _ _ Hco) as (_ & _ & Hp & _). rewrite Hp. discriminate.
Qed.

(** * Encoding *)
Notation encode_of := (RustFile.encode_of bc).
Notation gen_encode := (gen_encode bt).
Definition run (ss : list xs) (e : expr) : Prop := forall l es, stmts l es -> stmts (ss ++ l) (e :: es).
Definition encoded (ts : list rt) (e : expr) : Prop := exists ss, stm (ts ++ [semi]) ss /\ run ss e /\ (length ss <= length (ts ++ [semi]))%nat.
Lemma encoded_one ts x e : term1 ts x -> means x e -> hd2 ts = true -> encoded ts e.
Proof.
  intros H Hm Hh. exists [XSemi x]. split; [apply stm_expr; [apply term1_arg; [exact H|apply hd2_hd1; exact Hh]|exact Hh]|]. split; [|rewrite app_length; cbn; lia].
  intros l es Hl. cbn [app]. constructor; assumption.
Qed.
Lemma encoded_call f l xs es : args l xs -> Forall2 means xs es -> encoded (buf (fun_name f) l) (ECall f es).
Proof. intros Ha Hm. eapply encoded_one; [apply unary_term1, buf_unary; [apply fun_segment|exact Ha]|constructor; exact Hm|reflexivity]. Qed.
Lemma encoded_clos ps ts e : forallb RustTokens.is_ident ps = true -> encoded ts e ->
  exists x, (hd1 (clos ps (ts ++ [semi])) = true /\ arg (clos ps (ts ++ [semi])) x) /\ means x (EClos ps (ESeq [e])).
Proof.
  intros Hp (ss & H1 & H2 & H3). exists (XClosure ps ss). split; [apply clos_arg; [exact Hp|apply stm_blk; assumption]|]. constructor. apply b_seq. specialize (H2 [] [] (s_nil _ _)). rewrite app_nil_r in H2. exact H2.
Qed.
Lemma w_arg : hd1 [W w_] = true /\ arg [W w_] (XPath [W w_]).
Proof. apply var_arg. reflexivity. Qed.
Lemma w_means : means (XPath [W w_]) (EVar x_w).
Proof. exact (m_var low text w_). Qed.

Definition encode_claim (t : sty) : Prop := forall root u nme x e, code_type_ok t = true -> lower t = Some u -> nm nme x e -> encoded (encode_of root t nme) (snd (gen_encode root u e)).
(** The closure for the elements of a collection. *)
Lemma encode_elem t u v : encode_claim t -> code_type_ok t = true -> lower t = Some u -> RustTokens.is_ident v = true ->
  exists x, (hd1 (clos [w_; v] (encode_of false t [W v] ++ [semi])) = true /\ arg (clos [w_; v] (encode_of false t [W v] ++ [semi])) x)
    /\ means x (EClos [x_w; v] (ESeq [snd (gen_encode false u (EVar v))])).
Proof. intros IH Hc Hl Hv. apply encoded_clos; [cbn [forallb]; rewrite Hv; reflexivity|]. eapply IH; [exact Hc|exact Hl|apply nm_var; exact Hv]. Qed.
Lemma size_elem t u v : code_type_ok t = true -> lower t = Some u -> RustTokens.is_ident v = true ->
  exists x, (hd1 (clos [v] (size_of t [W v])) = true /\ arg (clos [v] (size_of t [W v])) x) /\ means x (EClos [v] (gen_size u (EVar v))).
Proof. intros Hc Hl Hv. destruct (size_reads t u _ _ _ Hc Hl (nm_var v Hv)) as (l & Hs). eapply sized_clos; [cbn [forallb]; rewrite Hv; reflexivity|exact Hs]. Qed.
Lemma encode_vec_like f t u nme x e : encode_claim t -> code_type_ok t = true -> lower t = Some u -> nm nme x e ->
  encoded (buf (fun_name f) [[W w_]; nme; clos [v_] (size_of t [W v_]); clos [w_; v_] (encode_of false t [W v_] ++ [semi])])
    (ECall f [EVar x_w; e; EClos [x_v] (gen_size u (EVar x_v)); EClos [x_w; x_v] (ESeq [snd (gen_encode false u (EVar x_v))])]).
Proof.
  intros IH Hc Hl Hn. destruct (encode_elem t u v_ IH Hc Hl eq_refl) as (y & Hy & Hm). destruct (size_elem t u v_ Hc Hl eq_refl) as (z & Hz & Hzm).
  destruct (nm_reads _ _ _ Hn) as (_ & Hx & _). eapply encoded_call.
  - constructor; [exact w_arg|]. constructor; [apply (nm_arg _ _ _ Hn)|]. constructor; [exact Hz|]. constructor; [exact Hy|constructor].
  - constructor; [exact w_means|]. constructor; [exact Hx|]. constructor; [exact Hzm|]. constructor; [exact Hm|constructor].
Qed.
Lemma encode_members nme x e ts us : (forall t, In t ts -> encode_claim t) -> forallb code_type_ok ts = true -> all_opt lower ts = Some us -> nm nme x e -> forall i,
  Forall2 encoded (mapi (fun i t => encode_of false t (member nme i)) i ts) (mapi (fun i u => snd (gen_encode false u (ERef (post (EProj i) e)))) i us).
Proof.
  intros IH Hc Hl Hn. revert us Hl. induction ts as [|t ts IHts]; intros us Hl i; cbn [all_opt] in Hl.
  - injection Hl as <-. constructor.
  - cbn [forallb] in Hc. apply andb_true_iff in Hc as [Hct Hc]. destruct (lower t) as [u|] eqn:E; [|discriminate]. destruct (all_opt lower ts) as [us'|]; [|discriminate]. injection Hl as <-.
    cbn [mapi]. constructor.
    + destruct (nm_member _ _ _ i Hn) as (x' & Hx). exact (IH t (or_introl eq_refl) false u _ _ _ Hct E Hx).
    + apply IHts; [intros t' Ht'; apply IH; right; exact Ht'|exact Hc|reflexivity].
Qed.
Lemma encoded_seq tss es : Forall2 encoded tss es -> exists ss, stm (terminated semi tss) ss /\ stmts ss es /\ (length ss <= length (terminated semi tss))%nat.
Proof.
  induction 1 as [|ts e tss es (ss & H1 & H2 & H3) H (ss' & G1 & G2 & G3)].
  - exists []. split; [apply stm_nil|]. split; [constructor|cbn; lia].
  - exists (ss ++ ss'). rewrite terminated_cons. change (ts ++ semi :: terminated semi tss) with (ts ++ [semi] ++ terminated semi tss). rewrite app_assoc. split; [apply stm_app; assumption|].
    split; [apply H2; exact G2|]. rewrite !(app_length _ (terminated _ _)), (app_length ss). lia.
Qed.
Lemma encode_reads t : encode_claim t.
Proof.
  induction t as [p|t IH|k v IHk IHv|t IH|t IH|t IH|ts IH|t n IH|path name gs IH] using LowerProofs.sty_ind2; intros root u nme x e Hc Hl Hn.
  - cbn [Lower.lower_type] in Hl. injection Hl as <-. cbn [RustFile.encode_of]. destruct (nm_reads _ _ _ Hn) as (_ & Hx & _).
    destruct (term1_deref_nm _ _ _ Hn) as [Hd Hdm].
    assert (Hs : forall f, fun_name f = tx "encode_" ++ word bc p ->
       encoded (buf (tx "encode_" ++ word bc p) [[W w_]; if is_scalar p then star :: nme else nme]) (ECall f [EVar x_w; if is_scalar p then EDeref e else e])).
    { intros f <-. eapply (encoded_call f _ [XPath [W w_]; if is_scalar p then XDeref x else x]).
      - constructor; [exact w_arg|]. constructor; [|constructor]. destruct (is_scalar p); [exact Hd|apply (nm_arg _ _ _ Hn)].
      - constructor; [exact w_means|]. constructor; [|constructor]. destruct (is_scalar p); assumption. }
    destruct p; cbn [is_scalar] in *; cbn [Lower.lower_prim RustCode.gen_encode snd]; apply Hs; try reflexivity; unfold bt; destruct bc; reflexivity.
  - cbn [code_type_ok] in Hc. cbn [Lower.lower_type] in Hl. destruct (lower t) as [u'|] eqn:E; [|discriminate]. injection Hl as <-. exact (encode_vec_like REncodeVec _ _ _ _ _ IH Hc E Hn).
  - cbn [code_type_ok] in Hc. apply andb_true_iff in Hc as [Hck Hcv]. cbn [Lower.lower_type] in Hl. destruct (lower k) as [k'|] eqn:Ek; [|discriminate]. destruct (lower v) as [v'|] eqn:Ev; [|discriminate]. injection Hl as <-.
    destruct (encode_elem k k' k_ IHk Hck Ek eq_refl) as (yk & Hyk & Hmk). destruct (size_elem k k' k_ Hck Ek eq_refl) as (zk & Hzk & Hzmk).
    destruct (encode_elem v v' v_ IHv Hcv Ev eq_refl) as (yv & Hyv & Hmv). destruct (size_elem v v' v_ Hcv Ev eq_refl) as (zv & Hzv & Hzmv).
    destruct (nm_reads _ _ _ Hn) as (_ & Hx & _). cbn [RustFile.encode_of RustCode.gen_encode snd].
    set (l := [[W w_]; nme; clos [k_] (size_of k [W k_]); clos [v_] (size_of v [W v_]); clos [w_; k_] (encode_of false k [W k_] ++ [semi]); clos [w_; v_] (encode_of false v [W v_] ++ [semi])]).
    assert (Ha : args l [XPath [W w_]; x; zk; zv; yk; yv]).
    { constructor; [exact w_arg|]. constructor; [apply (nm_arg _ _ _ Hn)|]. constructor; [exact Hzk|]. constructor; [exact Hzv|]. constructor; [exact Hyk|]. constructor; [exact Hyv|constructor]. }
    apply (encoded_one _ (call_ (fun_name REncodeMap) [XPath [W w_]; x; zk; zv; yk; yv])); [| |reflexivity].
    + apply unary_term1. apply (call_unary (mabo_buf ++ [w "encode_hash_map"]) (terminated comma l)); [apply pathy_buf; reflexivity|]. apply args_term. exact Ha.
    + constructor. constructor; [exact w_means|]. constructor; [exact Hx|]. constructor; [exact Hzmk|]. constructor; [exact Hzmv|]. constructor; [exact Hmk|]. constructor; [exact Hmv|constructor].
  - cbn [code_type_ok] in Hc. cbn [Lower.lower_type] in Hl. destruct (lower t) as [u'|] eqn:E; [|discriminate]. injection Hl as <-. exact (encode_vec_like REncodeSet _ _ _ _ _ IH Hc E Hn).
  - cbn [code_type_ok] in Hc. cbn [Lower.lower_type] in Hl. destruct (lower t) as [u'|] eqn:E; [|discriminate]. injection Hl as <-.
    destruct (encode_elem t u' v_ IH Hc E eq_refl) as (y & Hy & Hm). destruct (nm_reads _ _ _ Hn) as (_ & Hx & _). cbn [RustFile.encode_of RustCode.gen_encode snd]. eapply (encoded_call REncodeOption).
    + constructor; [exact w_arg|]. constructor; [apply (nm_arg _ _ _ Hn)|]. constructor; [exact Hy|constructor].
    + constructor; [exact w_means|]. constructor; [exact Hx|]. constructor; [exact Hm|constructor].
  - cbn [code_type_ok] in Hc. apply andb_true_iff in Hc as [Hz Hc]. cbn [Lower.lower_type] in Hl. destruct (lower t) as [u'|] eqn:E; [|discriminate]. injection Hl as <-.
    destruct (nm_get _ _ _ Hn) as (x' & Hg). destruct (nm_reads _ _ _ Hg) as (_ & Hgm & _). pose proof (nm_arg _ _ _ Hg) as Hga.
    assert (Hcall : forall f, encoded (buf (fun_name f) [[W w_]; nme ++ get_]) (ECall f [EVar x_w; post EGet e])).
    { intros f. eapply encoded_call; [constructor; [exact w_arg|constructor; [exact Hga|constructor]]|]. constructor; [exact w_means|]. constructor; [exact Hgm|constructor]. }
    destruct t as [p| | | | | | | |]; try discriminate Hz.
    + destruct p; try discriminate Hz; cbn [Lower.lower_type] in E; injection E as <-; cbn [RustFile.encode_of is_scalar Lower.lower_prim];
        try (match goal with |- context [TNonZero ?t] => match eval cbv in (scalar_of t) with Some ?s => apply (Hcall (REncode s)) end end);
        (apply (IH false _ _ _ _ Hc eq_refl Hg)).
    + cbn [Lower.lower_type] in E. destruct (lower t) as [u2|] eqn:E2; [|discriminate]. injection E as <-. apply (fun H => IH false (TVec u2) _ _ _ Hc H Hg). cbn [Lower.lower_type]; rewrite E2; reflexivity.
    + cbn [Lower.lower_type] in E. destruct (lower t1) as [u2|] eqn:E2; [|discriminate]. destruct (lower t2) as [u3|] eqn:E3; [|discriminate]. injection E as <-.
      apply (fun H => IH false (TMap u2 u3) _ _ _ Hc H Hg). cbn [Lower.lower_type]; rewrite E2, E3; reflexivity.
    + cbn [Lower.lower_type] in E. destruct (lower t) as [u2|] eqn:E2; [|discriminate]. injection E as <-. apply (fun H => IH false (TSet u2) _ _ _ Hc H Hg). cbn [Lower.lower_type]; rewrite E2; reflexivity.
  - cbn [code_type_ok] in Hc. apply andb_true_iff in Hc as [Hlen Hc]. cbn [Lower.lower_type] in Hl. destruct (all_opt lower ts) as [us|] eqn:E; [|discriminate]. injection Hl as <-.
    assert (Hne : ts <> []) by (destruct ts; [discriminate Hlen|discriminate]).
    destruct (encoded_seq _ _ (encode_members nme x e ts us IH Hc E Hn 0%nat)) as (ss & H1 & H2 & H3).
    set (es := mapi (fun i u => snd (gen_encode false u (ERef (post (EProj i) e)))) 0%nat us) in *. set (tss := mapi (fun i t => encode_of false t (member nme i)) 0%nat ts) in *.
    destruct root.
    + destruct (sized_sum _ _ (size_members nme x e ts us (fun t _ => size_reads t) Hc E Hn 0%nat) (mapi_nonnil _ _ _ Hne)) as (l & S1 & S2 & S3 & S4).
      assert (Hg : snd (gen_encode true (TTuple us) e) = ECall REncodeTuple [EVar x_w; EClos [] (sum_of (mapi (fun i u => gen_size u (ERef (post (EProj i) e))) 0%nat us)); EClos [x_w] (ESeq es)]).
      { cbn [RustCode.gen_encode snd]. unfold tuple_len_ok. rewrite (all_opt_len _ _ _ E), Hlen. reflexivity. }
      rewrite Hg. destruct (sized_clos [] (separated plus (mapi (fun i t => size_of t (member nme i)) 0%nat ts)) l (sum_of (mapi (fun i u => gen_size u (ERef (post (EProj i) e))) 0%nat us)) eq_refl) as (y & Hy & Hm).
      { split; [exact S1|]. split; [exact S2|]. split; assumption. }
      change (encode_of true (STuple ts) nme) with (buf (fun_name REncodeTuple) [[W w_]; clos [] (separated plus (mapi (fun i t => size_of t (member nme i)) 0%nat ts)); clos [w_] (terminated semi tss)]).
      eapply encoded_call.
      * constructor; [exact w_arg|]. constructor; [exact Hy|]. constructor; [apply clos_arg; [reflexivity|apply stm_blk; [exact H1|exact H3]]|constructor].
      * constructor; [exact w_means|]. constructor; [exact Hm|]. constructor; [|constructor]. constructor. apply b_seq. exact H2.
    + assert (Hg : snd (gen_encode false (TTuple us) e) = ESeq es).
      { cbn [RustCode.gen_encode snd]. unfold tuple_len_ok. rewrite (all_opt_len _ _ _ E), Hlen. reflexivity. }
      rewrite Hg. change (encode_of false (STuple ts) nme) with (terminated semi tss). exists (ss ++ [XEmpty]). split; [apply stm_app; [exact H1|apply stm_empty]|]. split.
      * intros l es' Hl. rewrite <- app_assoc. apply s_seq; [exact H2|]. cbn [app]. constructor. exact Hl.
      * rewrite !app_length. cbn [length]. lia.
  - cbn [code_type_ok] in Hc. cbn [Lower.lower_type] in Hl. destruct (lower t) as [u'|] eqn:E; [|discriminate]. injection Hl as <-. exact (encode_vec_like REncodeArray _ _ _ _ _ IH Hc E Hn).
  - destruct (nm_encode u _ _ _ Hn) as (x' & Hx & Hm). cbn [RustFile.encode_of]. assert (E : snd (gen_encode root u e) = post (fun e => EEncodeM u e (EVar x_w)) e).
    { cbn [Lower.lower_type] in Hl. destruct (all_opt lower gs) as [us|]; [|discriminate]. unfold Lower.lower_ref in Hl.
      destruct path as [|s path]; [destruct (Lower.position name params); [destruct us; [injection Hl as <-; reflexivity|discriminate]|]|]; (destruct (look _ name); [injection Hl as <-; reflexivity|discriminate]). }
    rewrite E. apply (encoded_one _ x'); [exact Hx|exact Hm|]. destruct (nm_reads _ _ _ Hn) as (_ & _ & Hh). apply hd2_app. exact Hh.
Qed.
End Means.

(** * Types *)
Section Types.
Variable bc : bool.
Notation data_ty := (RustFile.data_ty bc).
Lemma tt_angle l : map tt_of (angle l) = RustTokens.angle (map tt_of l).
Proof. unfold angle, RustTokens.angle. cbn [map]. rewrite map_app. reflexivity. Qed.
Lemma tt_terminated (l : list sty) : (forall t, In t l -> map tt_of (data_ty t) = RustTokens.emit_ty bc t) ->
  map tt_of (terminated comma (map data_ty l)) = RustTokens.commas (RustTokens.emit_ty bc) l.
Proof.
  intros H. induction l as [|t l IH]; [reflexivity|]. cbn [map]. rewrite terminated_cons, map_app. cbn [map]. unfold RustTokens.commas in *. cbn [flat_map].
  rewrite (H t (or_introl eq_refl)), IH by (intros t' Ht'; apply H; right; exact Ht'). rewrite <- app_assoc. reflexivity.
Qed.
Lemma tt_path path : map tt_of (path_to path) = flat_map (fun s => [RustTokens.TId s; RustTokens.TP RustTokens.PnPathSep]) path.
Proof. unfold path_to. induction path as [|s path IH]; [reflexivity|]. cbn [flat_map]. rewrite map_app, IH. reflexivity. Qed.
Definition tt_claim (t : sty) : Prop := def_type_ok t = true -> map tt_of (data_ty t) = RustTokens.emit_ty bc t.
Lemma tt_data2 t : tt_claim t /\ match t with SVec t | SHashSet t => tt_claim t | SHashMap k v => tt_claim k /\ tt_claim v | _ => True end.
Proof.
  induction t as [p|t IH|k v IHk IHv|t IH|t IH|t IH|ts IH|t n IH|path name gs IH] using LowerProofs.sty_ind2;
    (split; [intros Hd; cbn [def_type_ok] in Hd|try exact I; try (apply IH); try (split; [apply IHk|apply IHv])]).
  - destruct p; try reflexivity; cbn [RustFile.data_ty prim_ty RustTokens.emit_ty RustTokens.emit_prim]; destruct bc; reflexivity.
  - cbn [RustFile.data_ty RustTokens.emit_ty map]. rewrite tt_angle, (proj1 IH Hd). reflexivity.
  - apply andb_true_iff in Hd as [Hk Hv]. cbn [RustFile.data_ty RustTokens.emit_ty]. rewrite map_app, tt_angle, map_app. cbn [map]. rewrite (proj1 IHk Hk), (proj1 IHv Hv). reflexivity.
  - cbn [RustFile.data_ty RustTokens.emit_ty]. rewrite map_app, tt_angle, (proj1 IH Hd). reflexivity.
  - cbn [RustFile.data_ty RustTokens.emit_ty map]. rewrite tt_angle, (proj1 IH Hd). reflexivity.
  - apply andb_true_iff in Hd as [Hz Hd]. destruct t as [p|t|k v|t| | | | |]; try discriminate Hz; cbn [def_type_ok] in Hd.
    + destruct p; try discriminate Hz; try reflexivity; cbn [RustFile.data_ty nz_prim_ty RustTokens.emit_ty RustTokens.emit_nz_prim]; destruct bc; reflexivity.
    + destruct IH as [_ IH]. cbn [RustFile.data_ty RustTokens.emit_ty]. rewrite map_app. cbn [map]. rewrite tt_angle, (IH Hd). reflexivity.
    + destruct IH as [_ [IHk IHv]]. apply andb_true_iff in Hd as [Hk Hv]. cbn [RustFile.data_ty RustTokens.emit_ty]. rewrite map_app. cbn [map]. rewrite tt_angle, map_app. cbn [map]. rewrite (IHk Hk), (IHv Hv). reflexivity.
    + destruct IH as [_ IH]. cbn [RustFile.data_ty RustTokens.emit_ty]. rewrite map_app. cbn [map]. rewrite tt_angle, (IH Hd). reflexivity.
  - cbn [RustFile.data_ty RustTokens.emit_ty map tt_of]. rewrite tt_terminated; [reflexivity|]. rewrite forallb_forall in Hd. intros t Ht. apply IH; [exact Ht|apply Hd; exact Ht].
  - cbn [RustFile.data_ty RustTokens.emit_ty map tt_of]. rewrite map_app, (proj1 IH Hd). reflexivity.
  - cbn [RustFile.data_ty RustTokens.emit_ty]. rewrite map_app, tt_path. cbn [map tt_of]. destruct gs as [|g gs]; [reflexivity|]. rewrite tt_angle, tt_terminated; [reflexivity|].
    rewrite forallb_forall in Hd. intros t Ht. apply IH; [exact Ht|apply Hd; exact Ht].
Qed.
Lemma tt_data t : tt_claim t.
Proof. apply tt_data2. Qed.

(** Brackets in types are balanced. *)
Definition flat (ts : list rt) : Prop := forall d r, angle_end d (ts ++ r) = option_map (fun '(a, b) => (ts ++ a, b)) (angle_end d r).
Lemma flat_nil : flat [].
Proof. intros d r. cbn [app]. destruct (angle_end d r) as [[a b]|]; reflexivity. Qed.
Lemma flat_app a b : flat a -> flat b -> flat (a ++ b).
Proof. intros Ha Hb d r. rewrite <- app_assoc, Ha, Hb. destruct (angle_end d r) as [[x y]|]; [|reflexivity]. cbn [option_map]. rewrite <- app_assoc. reflexivity. Qed.
Lemma flat_cons t ts : is_p gt t = false -> is_p lt t = false -> flat ts -> flat (t :: ts).
Proof. intros Hg Hl H d r. cbn [app angle_end]. rewrite Hg, Hl, H. destruct (angle_end d r) as [[x y]|]; reflexivity. Qed.
Lemma flat_angle l : flat l -> flat (angle l).
Proof.
  intros H d r. unfold angle. cbn [app angle_end]. change (is_p gt lt) with false. change (is_p lt lt) with true. cbv iota. rewrite <- app_assoc, H. cbn [app angle_end].
  change (is_p gt gt) with true. cbv iota. destruct (angle_end d r) as [[x y]|]; [|reflexivity]. cbn [option_map]. rewrite <- app_assoc. reflexivity.
Qed.
Lemma flat_terminated l : (forall x, In x l -> flat x) -> flat (terminated comma l).
Proof.
  intros H. induction l as [|x l IH]; [apply flat_nil|]. rewrite terminated_cons. apply flat_app; [apply H; left; reflexivity|]. apply flat_cons; [reflexivity|reflexivity|].
  apply IH. intros y Hy. apply H. right. exact Hy.
Qed.
Lemma flat_path path : flat (path_to path).
Proof. unfold path_to. induction path as [|s path IH]; [apply flat_nil|]. cbn [flat_map app]. apply flat_cons; [reflexivity..|]. apply flat_cons; [reflexivity..|exact IH]. Qed.
Ltac flat := repeat first [apply flat_nil | apply flat_angle | (apply flat_cons; [reflexivity|reflexivity|]) | (apply flat_app)]; try assumption.
Lemma flat_data2 t : flat (data_ty t) /\ match t with SVec t | SHashSet t => flat (data_ty t) | SHashMap k v => flat (data_ty k) /\ flat (data_ty v) | _ => True end.
Proof.
  induction t as [p|t IH|k v IHk IHv|t IH|t IH|t IH|ts IH|t n IH|path name gs IH] using LowerProofs.sty_ind2;
    (split; [|try exact I; try (apply IH); try (split; [apply IHk|apply IHv])]); cbn [RustFile.data_ty].
  - destruct p; cbn [prim_ty word]; try (destruct bc); unfold bytes_ty, vec_u8, box_str, box_u8; flat;
      match goal with |- flat [_; ?t; _] => apply (flat_angle [t]); flat end.
  - destruct IH as [IH _]. flat.
  - destruct IHk as [IHk _], IHv as [IHv _]. unfold hash_map_ty. cbn [app]. flat.
  - destruct IH as [IH _]. unfold hash_set_ty. cbn [app]. flat.
  - destruct IH as [IH _]. flat.
  - destruct t as [p|t|k v|t| | | | |]; try apply flat_nil.
    + destruct p; cbn [nz_prim_ty]; try (destruct bc); unfold std_num, mabo_, bytes_ty; cbn [app]; flat.
    + destruct IH as [_ IH]. unfold mabo_. cbn [app]. flat.
    + destruct IH as [_ [IHk IHv]]. unfold mabo_. cbn [app]. flat.
    + destruct IH as [_ IH]. unfold mabo_. cbn [app]. flat.
  - flat.
  - flat.
  - apply flat_app; [apply flat_path|]. apply flat_cons; [reflexivity..|]. destruct gs as [|g gs]; [apply flat_nil|]. apply flat_angle. apply flat_terminated.
    intros x Hx. apply in_map_iff in Hx as (t & <- & Ht). apply IH. exact Ht.
Qed.
Lemma flat_data t : flat (data_ty t).
Proof. apply flat_data2. Qed.
Lemma angle_args gs r : angle_end 0 (terminated comma (map data_ty gs) ++ gt :: r) = Some (terminated comma (map data_ty gs), r).
Proof. rewrite flat_terminated by (intros x Hx; apply in_map_iff in Hx as (t & <- & _); apply flat_data). cbn [angle_end]. change (is_p gt gt) with true. cbn [option_map]. rewrite app_nil_r. reflexivity. Qed.

(** No equals sign outside of groups. *)
Definition noeq (ts : list rt) : bool := forallb (fun t => negb (is_p equals t)) ts.
Lemma noeq_app a b : noeq (a ++ b) = noeq a && noeq b.
Proof. apply forallb_app. Qed.
Lemma noeq_upto ts r : noeq ts = true -> upto_eq (ts ++ equals :: r) = Some (ts, r).
Proof.
  induction ts as [|t ts IH]; intros H; [reflexivity|]. cbn [noeq forallb] in H. apply andb_true_iff in H as [Ht H]. apply negb_true_iff in Ht. cbn [app upto_eq]. rewrite Ht, IH by exact H. reflexivity.
Qed.
Lemma noeq_angle l : noeq (angle l) = noeq l.
Proof. unfold angle. cbn [noeq forallb]. change (negb (is_p equals lt)) with true. cbn [andb]. fold (noeq (l ++ [gt])). rewrite noeq_app. cbn. apply andb_true_r. Qed.
Lemma noeq_terminated l : (forall x, In x l -> noeq x = true) -> noeq (terminated comma l) = true.
Proof.
  intros H. induction l as [|x l IH]; [reflexivity|]. rewrite terminated_cons, noeq_app, (H x (or_introl eq_refl)). apply IH. intros y Hy. apply H. right. exact Hy.
Qed.
Lemma noeq_data2 t : noeq (data_ty t) = true /\ match t with SVec t | SHashSet t => noeq (data_ty t) = true | SHashMap k v => noeq (data_ty k) = true /\ noeq (data_ty v) = true | _ => True end.
Proof.
  induction t as [p|t IH|k v IHk IHv|t IH|t IH|t IH|ts IH|t n IH|path name gs IH] using LowerProofs.sty_ind2;
    (split; [|try exact I; try (apply IH); try (split; [apply IHk|apply IHv])]); cbn [RustFile.data_ty].
  - destruct p; cbn [prim_ty word]; try (destruct bc); reflexivity.
  - change (noeq (angle (data_ty t)) = true). rewrite noeq_angle. apply IH.
  - change (noeq (angle (data_ty k ++ comma :: data_ty v)) = true). rewrite noeq_angle, noeq_app, (proj1 IHk). exact (proj1 IHv).
  - change (noeq (angle (data_ty t)) = true). rewrite noeq_angle. apply IH.
  - change (noeq (angle (data_ty t)) = true). rewrite noeq_angle. apply IH.
  - destruct t as [p|t|k v|t| | | | |]; try reflexivity.
    + destruct p; cbn [nz_prim_ty]; try (destruct bc); reflexivity.
    + change (noeq (angle (data_ty t)) = true). rewrite noeq_angle. apply IH.
    + change (noeq (angle (data_ty k ++ comma :: data_ty v)) = true). destruct IH as [_ [IHk IHv]]. rewrite noeq_angle, noeq_app, IHk. exact IHv.
    + change (noeq (angle (data_ty t)) = true). rewrite noeq_angle. apply IH.
  - reflexivity.
  - reflexivity.
  - rewrite noeq_app. apply andb_true_iff. split; [unfold path_to; clear; induction path as [|s path IH]; [reflexivity|exact IH]|]. change (noeq (if gs then [] else angle (terminated comma (map data_ty gs))) = true).
    destruct gs as [|g gs]; [reflexivity|]. rewrite noeq_angle. apply noeq_terminated. intros x Hx. apply in_map_iff in Hx as (t & <- & Ht). apply IH. exact Ht.
Qed.
Lemma noeq_data t : noeq (data_ty t) = true.
Proof. apply noeq_data2. Qed.

(** Types are read as types. *)
Notation ok_ty := RustTokensProofs.ok_ty.
Lemma one_data t : def_type_ok t = true -> ok_ty t = true -> one_type (data_ty t) = true.
Proof.
  intros Hd Ho. unfold one_type. rewrite (tt_data t Hd). destruct (RustTokensProofs.ty_reads bc t Hd (3 + RustTokens.tsizes (RustTokens.emit_ty bc t))%nat [] I) as [_ H].
  rewrite app_nil_r in H. rewrite H; [reflexivity|exact Ho|]. pose proof (proj1 (RustTokensProofs.ty_bounded2 bc t) Hd). lia.
Qed.
Lemma some_data gs : forallb def_type_ok gs = true -> forallb ok_ty gs = true -> some_types (terminated comma (map data_ty gs)) = true.
Proof.
  intros Hd Ho. unfold some_types. rewrite map_app, tt_terminated by (rewrite forallb_forall in Hd; intros t Ht; apply tt_data, Hd, Ht). cbn [map]. change (tt_of gt) with (RustTokens.TP RustTokens.PnGt).
  set (l := RustTokens.commas (RustTokens.emit_ty bc) gs ++ [RustTokens.TP RustTokens.PnGt]).
  destruct (RustTokensProofs.until_gt_reads (RustTokens.p_ty (3 + RustTokens.tsizes l)%nat) (RustTokens.emit_ty bc) ok_ty (fun t => (RustTokensProofs.depth t <= 3 + RustTokens.tsizes l)%nat) gs) with (n := S (length l)) (rest := @nil RustTokens.tt) as [_ H].
  - intros a rest Ha Hs. apply RustTokensProofs.ty_reads; [|exact Hs]. rewrite forallb_forall in Hd. apply Hd. exact Ha.
  - intros a Ha. apply RustTokensProofs.begins_ty. rewrite forallb_forall in Hd. apply Hd. exact Ha.
  - rewrite app_nil_r in H. fold l in H. rewrite H; [reflexivity|exact Ho|]. split.
    + unfold l. rewrite app_length. pose proof (RustTokensProofs.commas_length (RustTokens.emit_ty bc) gs). cbn [length]. lia.
    + intros a Ha. rewrite forallb_forall in Hd. pose proof (proj1 (RustTokensProofs.ty_bounded2 bc a) (Hd a Ha)).
      unfold l. rewrite RustTokensProofs.tsizes_app. pose proof (RustTokensProofs.tsizes_commas (RustTokens.emit_ty bc) gs a Ha). lia.
Qed.
End Types.
