(** The emitted functions are read back as trees of the intended meaning: the decode functions (used in PropRustText.v). *)
From Verif Require Import Base Varint Wire Codec Syntax Parser Compiler RustFile RustRead RustMeans RustReadProofs RustReadProofs2 RustReadProofs3.
From Verif Require RustCode RustTokens RustTokensProofs Lower LowerProofs.
Import RustCode.
Require Coq.Strings.String.
Import Coq.Strings.String.StringSyntax.
Local Open Scope N_scope.

(** * Struct expressions *)
Inductive init : list rt -> str * option rx -> Prop :=
| i_short n : RustTokens.is_ident n = true -> init [W n] (n, None)
| i_full n ts x : RustTokens.is_ident n = true -> arg ts x -> init (W n :: colon :: ts) (n, Some x).
Lemma inits_read l fs : Forall2 init l fs -> forall f n, (forall ts, In ts l -> (rsizes ts <= f)%nat) -> (length l < n)%nat -> p_inits (EL (S f)) n (terminated comma l) = Some fs.
Proof.
  induction 1 as [|ts a l fs Ha H IH]; intros f n Hf Hn; (destruct n as [|n]; [lia|]); [reflexivity|].
  cbn [length] in Hn. rewrite terminated_cons. assert (Hr : p_inits (EL (S f)) n (terminated comma l) = Some fs) by (apply IH; [intros y Hy; apply Hf; right; exact Hy|lia]).
  destruct Ha as [x Hx|x ts y Hx Hy].
  - cbn [app p_inits]. rewrite Hx. change (is_p comma comma) with true. cbv iota. rewrite Hr. reflexivity.
  - cbn [app p_inits]. rewrite Hx. change (is_p comma colon) with false. change (is_p colon colon) with true. cbv iota.
    assert (Hs : (rsizes ts <= f)%nat) by (specialize (Hf _ (or_introl eq_refl)); rewrite !rsizes_cons in Hf; lia).
    pose proof (Hy f Hs _ (st_comma (terminated comma l))) as He. rewrite <- EL_S in He. rewrite He. change (is_p comma comma) with true. cbv iota. rewrite Hr. reflexivity.
Qed.
Lemma struct_unary p l fs : pathy p -> Forall2 init l fs -> unary (p ++ [G Brc (terminated comma l)]) (XStruct p fs).
Proof.
  intros [Ht Hp] Hi f Hf rest Hr. rewrite rsizes_app, rsizes_cons, rsize_group in Hf. destruct f as [|f]; [lia|].
  assert (Hin : p_inits (EL (S f)) (S (length (terminated comma l))) (terminated comma l) = Some fs).
  { apply inits_read; [exact Hi| |pose proof (length_terminated comma l); lia]. intros ts Hts. pose proof (rsizes_terminated comma l ts Hts). lia. }
  rewrite <- app_assoc. cbn [app]. specialize (Hp (G Brc (terminated comma l) :: rest) I). destruct Ht as (t & p' & -> & Ht). unfold pun, ppo. cbn [app] in *. cbn [p_unary].
  assert (Ht' : is_p amp t = false /\ is_p star t = false /\ is_p bar t = false).
  { destruct t as [w| c | |]; try contradiction; [repeat split|]. subst c. repeat split. }
  destruct Ht' as (H1 & H2 & H3). rewrite H1, H2.
  assert (Ha : p_atom (EL (S f)) (BL (S f)) true (t :: p' ++ G Brc (terminated comma l) :: rest) = Some (XStruct (t :: p') fs, rest)).
  { unfold p_atom. destruct t as [w| c | |]; try contradiction; rewrite H3, Hp, Hin; reflexivity. }
  rewrite Ha. reflexivity.
Qed.

Section DecodeFn.
Variable bc : bool.
Let bt : bytes_type := if bc then BBytes else BVecU8.
Variable look : list str -> str -> option nat.
Variable params : list str.
Notation lower := (Lower.lower_type look params).
Notation text := (RustFile.data_ty bc).
Notation means := (means lower text).
Notation ok_ty := RustTokensProofs.ok_ty.

Lemma ident_hd1 x r : RustTokens.is_ident x = true -> hd1 (W x :: r) = true.
Proof. intros H. apply hd2_hd1, hd2_ident. exact H. Qed.
Lemma unary_arg ts x : unary ts x -> hd1 ts = true -> hd1 ts = true /\ arg ts x.
Proof. intros H Hh. split; [exact Hh|]. apply term1_arg; [apply unary_term1; exact H|exact Hh]. Qed.

(** ** The value of a field *)
Lemma ok_reads x i (lit : list rt) lx : RustTokens.is_ident x = true -> arg lit lx ->
  unary (W x :: dot :: w "ok_or" :: [G Par (missing ++ [G Brc (terminated comma [[w "id"; colon; num i]; w "name" :: colon :: lit])]); quest])
    (XTry (XMethod (XPath [W x]) (tx "ok_or") [XStruct (q "::mabo::buf::Error::MissingField") [(tx "id", Some (XLit (dec_str i))); (tx "name", Some lx)]])).
Proof.
  intros Hx Hl. set (st := missing ++ _). assert (Hst : hd1 st = true /\ arg st (XStruct (q "::mabo::buf::Error::MissingField") [(tx "id", Some (XLit (dec_str i))); (tx "name", Some lx)])).
  { apply unary_arg; [|reflexivity]. apply struct_unary; [apply (pathy_abs (tx "mabo") [tx "buf"; tx "Error"; tx "MissingField"]); reflexivity|].
    constructor; [apply (i_full (tx "id") [num i]); [reflexivity|exact (proj2 (num_arg i))]|]. constructor; [apply (i_full (tx "name")); [reflexivity|exact Hl]|constructor]. }
  change (W x :: dot :: w "ok_or" :: [G Par st; quest]) with (([W x] ++ [dot; W (tx "ok_or"); G Par st]) ++ [quest]). apply unary_try. apply unary_method; [apply pathy_unary, pathy_var; exact Hx|reflexivity|].
  apply (args_sep [st]). constructor; [exact Hst|constructor].
Qed.
Lemma lit_arg (named : bool) x : hd1 (if named then w "Some" :: [G Par [name_lit x]] else [w "None"]) = true /\
  arg (if named then w "Some" :: [G Par [name_lit x]] else [w "None"]) (if named then XCall (name_ "Some") [XLit (34 :: x ++ [34])] else name_ "None").
Proof.
  destruct named.
  - apply unary_arg; [|reflexivity]. apply (call_unary [w "Some"] [name_lit x]); [apply (pathy_rel (tx "Some") []); reflexivity|]. apply (args_sep [[name_lit x]]). constructor; [|constructor]. apply unary_arg; [apply lit_unary|reflexivity].
  - apply unary_arg; [|reflexivity]. apply pathy_unary. apply (pathy_rel (tx "None") []); reflexivity.
Qed.
Definition assign_tree (named : bool) (f : sfield) : rx :=
  match sf_ty f with
  | SOption _ => XPath [W (sf_name f)]
  | _ => XTry (XMethod (XPath [W (sf_name f)]) (tx "ok_or") [XStruct (q "::mabo::buf::Error::MissingField")
       [(tx "id", Some (XLit (dec_str (sf_id f)))); (tx "name", Some (if named then XCall (name_ "Some") [XLit (34 :: sf_name f ++ [34])] else name_ "None"))]])
  end.
Lemma assign_named f : field_ok f -> init (decode_assign true f) (sf_name f, match sf_ty f with SOption _ => None | _ => Some (assign_tree true f) end).
Proof.
  intros (Hi & _). pose proof (ok_reads (sf_name f) (sf_id f) _ _ Hi (proj2 (lit_arg true (sf_name f)))) as Hok. unfold decode_assign, assign_tree.
  destruct (sf_ty f); try (apply i_full; [exact Hi|]; apply (unary_arg _ _ Hok); apply ident_hd1; exact Hi). apply i_short. exact Hi.
Qed.
Lemma assign_unnamed f : field_ok f -> hd1 (decode_assign false f) = true /\ arg (decode_assign false f) (assign_tree false f).
Proof.
  intros (Hi & _). pose proof (ok_reads (sf_name f) (sf_id f) _ _ Hi (proj2 (lit_arg false (sf_name f)))) as Hok. unfold decode_assign, assign_tree.
  destruct (sf_ty f); try (apply (unary_arg _ _ Hok); apply ident_hd1; exact Hi). apply (var_arg lower text). exact Hi.
Qed.
Lemma assign_value k (named : bool) f f' : (named = true -> k = KNamed) -> (named = false -> k = KUnnamed) -> Lower.lower_field look params f = Some f' ->
  fst (gen_assign k f') = sf_name f /\ field_value (sf_name f) (snd (gen_assign k f')) (assign_tree named f).
Proof.
  intros Ht Hf Hl. unfold Lower.lower_field in Hl. destruct (lower (sf_ty f)) as [u|] eqn:E; [|discriminate]. injection Hl as <-. unfold gen_assign, assign_tree. cbn [f_name f_ty f_id fst snd]. split; [reflexivity|].
  destruct (sf_ty f) as [p|t|kt v|t|t|t|ts|t n|path name gs] eqn:Et.
  5: { cbn [Lower.lower_type] in E. destruct (lower t); [|discriminate]. injection E as <-. exact eq_refl. }
  all: assert (Hu : match u with TOption _ => False | _ => True end) by (rewrite <- Et in E; destruct u; try exact I; destruct (option_only look params _ _ E) as (t' & E'); congruence).
  all: (destruct named; [rewrite (Ht eq_refl)|rewrite (Hf eq_refl)]); (destruct u; try contradiction; exact eq_refl).
Qed.
(** ** The variables *)
Lemma var_reads f f' : field_ok f -> Lower.lower_field look params f = Some f' ->
  exists s, stm (decode_var bc f) [s] /\ (fun '(x, t) => exists t', s = XLet true (PName [W x]) (Some (text t')) (name_ "None") /\ lower t' = Some t) (gen_var f').
Proof.
  intros (Hi & Hd & _ & Ho) Hl. unfold Lower.lower_field in Hl. destruct (lower (sf_ty f)) as [u|] eqn:E; [|discriminate]. injection Hl as <-. unfold gen_var, decode_var. cbn [f_name f_ty].
  destruct (sf_ty f) as [p|t|kt v|t|t|t|ts|t n|path name gs] eqn:Et.
  5: { eexists. split; [exact (stm_var bc look params (sf_name f) (SOption t) Hi Hd Ho)|]. exists (SOption t). split; [reflexivity|]. cbn [Lower.lower_type] in *. destruct (lower t); [|discriminate]. injection E as <-. reflexivity. }
  all: assert (Hu : match u with TOption _ => False | _ => True end) by (rewrite <- Et in E; destruct u; try exact I; destruct (option_only look params _ _ E) as (t' & E'); congruence).
  all: match type of E with lower ?T = _ => eexists; (split; [exact (stm_var bc look params (sf_name f) (SOption T) Hi Hd Ho)|]); exists (SOption T); split; [reflexivity|change (lower (SOption T)) with (option_map TOption (lower T)); rewrite E; destruct u; try contradiction; reflexivity] end.
Qed.
(** ** The arms *)
Lemma call1_arg g ts x : RustTokens.segment_name true g = true -> hd1 ts = true -> arg ts x -> unary [W g; G Par ts] (XCall (XPath [W g]) [x]).
Proof.
  intros Hg Hh Ha. apply (call_unary [W g] ts); [apply (pathy_rel g []); [exact Hg|reflexivity]|]. apply (args_sep [ts]). constructor; [split; assumption|constructor].
Qed.
Lemma assign_full n ts x : RustTokens.is_ident n = true -> unary ts x -> ts <> [] -> afull (W n :: equals :: ts) (XAssign (XPath [W n]) x).
Proof.
  intros Hn Hu Hne f Hf r. rewrite !rsizes_cons in Hf. cbn [app]. unfold p_full. change (is_w "break" (W n)) with (str_eqb n (tx "break")). rewrite (ident_not n (tx "break") Hn eq_refl).
  pose proof (path_sum look params [W n] (pathy_var n Hn) f ltac:(rewrite rsizes_cons, rsizes_nil; lia) (equals :: ts ++ comma :: r) (h_equals _) eq_refl) as Hs. cbn [app] in Hs. rewrite Hs.
  change (is_p equals equals) with true. cbv iota. rewrite (unary_sum look params ts x Hu Hne f ltac:(lia) (comma :: r) (h_comma _) eq_refl). reflexivity.
Qed.
Lemma match_reads f f' : field_ok f -> Lower.lower_field look params f = Some f' ->
  exists a, armed (decode_match bc f) a /\ (fun '(p, x) '(i, n, e) => exists d, p = PLit (dec_str i) /\ x = XAssign (XPath [W n]) (XCall (name_ "Some") [XTry d]) /\ means d e) a (gen_arm bt f').
Proof.
  intros (Hi & Hd & Hc & Ho) Hl. unfold Lower.lower_field in Hl. destruct (lower (sf_ty f)) as [u|] eqn:E; [|discriminate]. injection Hl as <-. unfold gen_arm, decode_match. cbn [f_name f_ty f_id].
  assert (Hx : exists d, decoded bc look params (decode_of bc true (match sf_ty f with SOption t => t | t => t end)) d (gen_decode bt true (match u with TOption t => t | t => t end))).
  { destruct (sf_ty f) as [p|t|kt v|t|t|t|ts|t n|path name gs] eqn:Et.
    5: { cbn [Lower.lower_type] in E. destruct (lower t) eqn:E'; [|discriminate]. injection E as <-. exact (decode_reads bc look params t true _ Hc Ho E'). }
    all: assert (Hu : match u with TOption t => t | t => t end = u) by (rewrite <- Et in E; destruct u; try reflexivity; destruct (option_only look params _ _ E) as (t' & E'); congruence).
    all: rewrite Hu; apply (decode_reads bc look params _ true); assumption. }
  destruct Hx as (d & Hu & Hm & Hh & _). eexists. split.
  - apply (a_expr [num (sf_id f)] (PLit (dec_str (sf_id f))) (W (sf_name f))); [discriminate|reflexivity|reflexivity|]. apply assign_full; [exact Hi| |discriminate].
    apply (call1_arg (tx "Some")); [reflexivity|apply hd1_app; exact Hh|]. apply (unary_arg _ (XTry d)); [apply unary_try; exact Hu|apply hd1_app; exact Hh].
  - exists d. split; [reflexivity|]. split; [reflexivity|]. change (means d (snd (gen_arm bt (Field (sf_name f) (sf_id f) u)))).
    replace (snd (gen_arm bt (Field (sf_name f) (sf_id f) u))) with (gen_decode bt true (match u with TOption t => t | _ => u end)) by (destruct u; reflexivity). exact Hm.
Qed.
Lemma end_reads : armed end_arm (PName (q "::mabo::buf::END_MARKER"), XBreak).
Proof.
  apply (a_expr (q "::mabo::buf::END_MARKER") _ (w "break") []); [discriminate| |reflexivity|intros f _ r; reflexivity].
  intros r. assert (Hp : pathy (q "::mabo::buf::END_MARKER")) by (apply (pathy_abs (tx "mabo") [tx "buf"; tx "END_MARKER"]); reflexivity). rewrite (pat_head _ _ Hp). destruct Hp as [_ Hp]. rewrite Hp; reflexivity.
Qed.
Definition skip_tree : rx := call_ (tx "decode_skip") [XPath [W r_]; XField (XPath [W x_id]) (tx "encoding")].
Lemma skip_reads : armed skip_arm (PWild, XTry skip_tree).
Proof.
  apply (a_expr [P [95]] PWild sep2 (tl (buf (tx "decode_skip") [[W r_]; [w "id"; dot; w "encoding"]]) ++ [quest])); [discriminate|reflexivity|reflexivity|].
  apply (unary_afull (buf (tx "decode_skip") [[W r_]; [w "id"; dot; w "encoding"]] ++ [quest])); [|reflexivity]. apply unary_try. apply buf_unary; [reflexivity|].
  constructor; [apply (var_arg lower text); reflexivity|]. constructor; [|constructor]. apply unary_arg; [|reflexivity]. apply (unary_field [w "id"] (XPath [w "id"]) (tx "encoding")); [|reflexivity]. apply pathy_unary, (pathy_var (tx "id")). reflexivity.
Qed.
Lemma skip_means : means skip_tree (ECall RDecodeSkip [EVar x_r; EEncodingOf (EVar x_id)]).
Proof.
  apply (m_call lower text RDecodeSkip). constructor; [exact (m_var lower text r_)|]. constructor; [|constructor]. apply m_encoding_of. exact (m_var lower text x_id).
Qed.
Lemma next_means : means next_call (ECall RDecodeId [EVar x_r]).
Proof. apply (m_call lower text RDecodeId). constructor; [exact (m_var lower text r_)|constructor]. Qed.
Lemma id_scrut : scrut [w "id"; dot; w "value"] (XField (XPath [W x_id]) (tx "value")).
Proof.
  intros f _ l r. pose proof (pathy_unary_atom [w "id"] (EL f) (BL f) false (dot :: w "value" :: G Brc l :: r) (pathy_var (tx "id") eq_refl) eq_refl) as H. cbn [app] in *. rewrite H. reflexivity.
Qed.

(** ** Bodies *)
Lemma fields_reads l l' : Forall field_ok l -> all_opt (Lower.lower_field look params) l = Some l' ->
  (exists vars, stm (flat_map (decode_var bc) l) vars /\ (length vars <= length (flat_map (decode_var bc) l))%nat
     /\ Forall2 (fun s '(x, t) => exists t', s = XLet true (PName [W x]) (Some (text t')) (name_ "None") /\ lower t' = Some t) vars (map gen_var l'))
  /\ (exists arms, Forall2 armed (map (decode_match bc) l) arms
     /\ Forall2 (fun '(p, x) '(i, n, e) => exists d, p = PLit (dec_str i) /\ x = XAssign (XPath [W n]) (XCall (name_ "Some") [XTry d]) /\ means d e) arms (map (gen_arm bt) l')).
Proof.
  intros Hok. revert l'. induction Hok as [|f l Hf Hok IH]; intros l' Hl; cbn [all_opt] in Hl.
  - injection Hl as <-. split; [exists []; split; [apply stm_nil|split; [cbn; lia|constructor]]|exists []; split; constructor].
  - destruct (Lower.lower_field look params f) as [f'|] eqn:E; [|discriminate]. destruct (all_opt _ l) as [r|]; [|discriminate]. injection Hl as <-. destruct (IH r eq_refl) as [(vars & V1 & V2 & V3) (arms & A1 & A2)].
    destruct (var_reads f f' Hf E) as (s & S1 & S2). destruct (match_reads f f' Hf E) as (a & M1 & M2). split.
    + exists ([s] ++ vars). cbn [flat_map map]. split; [apply stm_app; assumption|]. split; [|constructor; assumption]. rewrite !app_length. cbn [length]. unfold decode_var at 1. cbn [length]. lia.
    + exists (a :: arms). cbn [map]. split; constructor; assumption.
Qed.
Lemma built_reads self fs fs' : pathy self -> hd1 self = true -> fields_ok fs -> Lower.lower_fields look params fs = Some fs' -> ss_kind fs <> SKUnit ->
  exists result, (hd1 (self ++ decode_assigns fs) = true /\ arg (self ++ decode_assigns fs) result) /\ built result self (fs_kind fs') (map (gen_assign (fs_kind fs')) (fs_list fs')).
Proof.
  intros Hp Hh Hok H Hk. destruct (lower_fields_kind look params _ _ H) as [Ek Hl]. rewrite Ek. unfold decode_assigns, fields_ok in *. destruct (ss_kind fs); cbn [Lower.lower_kind]; [| |congruence]; clear Hk Ek H; generalize dependent (fs_list fs').
  - assert (Hi : Forall2 init (map (decode_assign true) (ss_fields fs)) (map (fun f => (sf_name f, match sf_ty f with SOption _ => None | _ => Some (assign_tree true f) end)) (ss_fields fs))).
    { induction Hok as [|f l Hf Hok IH]; [constructor|]. cbn [map]. constructor; [apply assign_named; exact Hf|exact IH]. }
    intros l' Hl. eexists. split; [apply unary_arg; [apply (struct_unary self _ _ Hp Hi)|apply hd1_app; exact Hh]|]. eexists. split; [reflexivity|]. clear Hi. revert l' Hl. induction Hok as [|f l Hf Hok IH]; intros l' Hl; cbn [all_opt] in Hl.
    + injection Hl as <-. constructor.
    + destruct (Lower.lower_field look params f) as [f'|] eqn:E; [|discriminate]. destruct (all_opt _ l) as [r|]; [|discriminate]. injection Hl as <-. cbn [map]. constructor; [|apply IH; reflexivity].
      destruct (assign_value KNamed true f f' ltac:(reflexivity) ltac:(discriminate) E) as [H1 H2]. destruct (gen_assign KNamed f') as [n m]. cbn [fst snd] in *. split; [symmetry; exact H1|]. rewrite H1.
      unfold assign_tree in *. destruct (sf_ty f); exact H2.
  - assert (Hi : args (map (decode_assign false) (ss_fields fs)) (map (assign_tree false) (ss_fields fs))).
    { induction Hok as [|f l Hf Hok IH]; [constructor|]. cbn [map]. constructor; [apply assign_unnamed; exact Hf|exact IH]. }
    intros l' Hl. eexists. split; [apply unary_arg; [apply (call_unary self _ _ Hp (args_term _ _ Hi))|apply hd1_app; exact Hh]|]. eexists. split; [reflexivity|]. clear Hi. revert l' Hl. induction Hok as [|f l Hf Hok IH]; intros l' Hl; cbn [all_opt] in Hl.
    + injection Hl as <-. constructor.
    + destruct (Lower.lower_field look params f) as [f'|] eqn:E; [|discriminate]. destruct (all_opt _ l) as [r|]; [|discriminate]. injection Hl as <-. cbn [map]. constructor; [|apply IH; reflexivity].
      destruct (assign_value KUnnamed false f f' ltac:(discriminate) ltac:(reflexivity) E) as [H1 H2]. destruct (gen_assign KUnnamed f') as [n m]. cbn [fst snd] in *. rewrite H1. exact H2.
Qed.
Lemma ok_arg ts x : hd1 ts = true -> arg ts x -> arg [w "Ok"; G Par ts] (XCall (name_ "Ok") [x]).
Proof. intros Hh Ha. apply (unary_arg [w "Ok"; G Par ts]); [apply (call1_arg (tx "Ok")); [reflexivity|exact Hh|exact Ha]|reflexivity]. Qed.
Lemma body_reads self fs fs' : pathy self -> hd1 self = true -> fields_ok fs -> Lower.lower_fields look params fs = Some fs' ->
  exists body, blk (decode_body bc self fs) body /\ fields_fn lower text body self (fs_kind fs') (gen_decode_fields bt fs')
    /\ (ss_kind fs = SKUnit -> body = [XTail (XCall (name_ "Ok") [XPath self])]).
Proof.
  intros Hp Hh Hok H. destruct (lower_fields_kind look params _ _ H) as [Ek Hl]. unfold decode_body, gen_decode_fields. 
  destruct (fields_reads _ _ Hok Hl) as [(vars & V1 & V2 & V3) (arms & A1 & A2)].
  assert (Hloop : ss_kind fs <> SKUnit -> exists result, blk (flat_map (decode_var bc) (ss_fields fs) ++ [w "loop"; G Brc (let_id ++ id_value ++ [G Brc (terminated comma (end_arm :: map (decode_match bc) (ss_fields fs) ++ [skip_arm]))])] ++ [w "Ok"; G Par (self ++ decode_assigns fs)])
      ((vars ++ [XTail (XLoop [XLet false (PName [W x_id]) None (XTry next_call);
                                    XTail (XMatch (XField (XPath [W x_id]) (tx "value"))
                                      ((PName (q "::mabo::buf::END_MARKER"), XBreak) :: arms ++ [(PWild, XTry skip_tree)]))])]) ++ [XTail (XCall (name_ "Ok") [result])])
      /\ built result self (fs_kind fs') (map (gen_assign (fs_kind fs')) (fs_list fs'))).
  { intros Hk. destruct (built_reads self fs fs' Hp Hh Hok H Hk) as (result & [R1 R2] & R3). exists result. split; [|exact R3]. rewrite app_assoc.
    apply stm_tail; [|rewrite !app_length; cbn [length]; lia|apply ok_arg; assumption|reflexivity]. apply stm_app; [exact V1|]. apply (stm_loop look params).
    change [XLet false (PName [W x_id]) None (XTry next_call); XTail (XMatch (XField (XPath [W x_id]) (tx "value")) ((PName (q "::mabo::buf::END_MARKER"), XBreak) :: arms ++ [(PWild, XTry skip_tree)]))]
      with ([XLet false (PName [W x_id]) None (XTry next_call)] ++ [XTail (XMatch (XField (XPath [W x_id]) (tx "value")) ((PName (q "::mabo::buf::END_MARKER"), XBreak) :: arms ++ [(PWild, XTry skip_tree)]))]).
    apply stm_blk; [|rewrite !app_length; cbn [length]; unfold let_id, id_value; cbn [length]; lia]. apply stm_app; [exact (stm_id bc look params)|].
    change (id_value ++ [G Brc (terminated comma (end_arm :: map (decode_match bc) (ss_fields fs) ++ [skip_arm]))])
      with (w "match" :: [w "id"; dot; w "value"] ++ [G Brc (terminated comma (end_arm :: map (decode_match bc) (ss_fields fs) ++ [skip_arm]))]).
    apply (stm_match look params); [exact id_scrut|]. constructor; [exact end_reads|]. apply Forall2_app; [exact A1|]. constructor; [exact skip_reads|constructor]. }
  assert (Hfn : forall result, built result self (fs_kind fs') (map (gen_assign (fs_kind fs')) (fs_list fs')) -> 
    fields_fn lower text ((vars ++ [XTail (XLoop [XLet false (PName [W x_id]) None (XTry next_call);
                                    XTail (XMatch (XField (XPath [W x_id]) (tx "value"))
                                      ((PName (q "::mabo::buf::END_MARKER"), XBreak) :: arms ++ [(PWild, XTry skip_tree)]))])]) ++ [XTail (XCall (name_ "Ok") [result])]) self (fs_kind fs')
       (DLoop (Loop (map gen_var (fs_list fs')) x_id (ECall RDecodeId [EVar x_r]) (map (gen_arm bt) (fs_list fs')) (ECall RDecodeSkip [EVar x_r; EEncodingOf (EVar x_id)]) (map (gen_assign (fs_kind fs')) (fs_list fs'))))).
  { intros result Hb. exists vars, next_call, arms, skip_tree, result. cbn [d_vars d_id d_next d_arms d_skip d_build]. split; [rewrite <- app_assoc; reflexivity|]. split; [exact V3|]. split; [exact next_means|]. split; [exact skip_means|]. split; [exact A2|exact Hb]. }
  rewrite Ek in *. destruct (ss_kind fs); cbn [Lower.lower_kind] in *.
  1,2: destruct (Hloop ltac:(discriminate)) as (result & Hb & Hr); eexists; (split; [exact Hb|]); (split; [apply Hfn; exact Hr|discriminate]).
  eexists. split; [|split; reflexivity]. apply tail_blk; [|reflexivity]. apply ok_arg; [exact Hh|]. apply (path_arg _ Hp Hh).
Qed.
Lemma decode_struct_reads fs fs' : fields_ok fs -> Lower.lower_fields look params fs = Some fs' ->
  exists body, read_body (decode_body bc [w "Self"] fs) = Some body /\ decode_fn lower text body [] (fs_kind fs') (gen_decode_def bt (DStruct fs')).
Proof.
  intros Hok H. destruct (body_reads [w "Self"] fs fs') as (body & Hb & Hf & _); [apply (pathy_rel (tx "Self") []); reflexivity|reflexivity|exact Hok|exact H|].
  exists body. split; [apply (read_blk look params); exact Hb|exact Hf].
Qed.
Lemma decode_arm_reads v v' : variant_ok v -> Lower.lower_variant look params v = Some v' ->
  exists a, armed (decode_variant bc v) a /\ (fun '(p, x) => p = PLit (dec_str (v_id v')) /\
     exists l, (match fs_kind (v_fields v') with KUnit => l = [XTail x] | _ => x = XBlock l end) /\ fields_fn lower text l (q "Self::" ++ [W (sv_name v)]) (fs_kind (v_fields v')) (gen_decode_fields bt (v_fields v'))) a
  /\ fs_kind (v_fields v') = Lower.lower_kind (ss_kind (sv_fields v)).
Proof.
  intros [Hn Hok] Hl. unfold Lower.lower_variant in Hl. destruct (Lower.lower_fields look params (sv_fields v)) as [fs'|] eqn:E; [|discriminate]. injection Hl as <-. cbn [v_fields v_id].
  destruct (lower_fields_kind look params _ _ E) as [Ek _]. destruct (body_reads [w "Self"; sep2; W (sv_name v)] _ _ (self_path _ Hn) eq_refl Hok E) as (body & Hb & Hf & Hu). unfold decode_variant. rewrite Ek in *.
  destruct (ss_kind (sv_fields v)) eqn:Es; cbn [Lower.lower_kind] in *.
  1,2: eexists; (split; [apply (a_block [num (sv_id v)] (PLit (dec_str (sv_id v))) _ body); [discriminate|reflexivity|exact Hb]|]); (split; [split; [reflexivity|]; eexists; split; [reflexivity|exact Hf]|reflexivity]).
  specialize (Hu eq_refl). subst body. unfold decode_body. rewrite Es.
  exists (PLit (dec_str (sv_id v)), XCall (name_ "Ok") [XPath [w "Self"; sep2; W (sv_name v)]]). split; [|split; [split; [reflexivity|eexists; split; [reflexivity|exact Hf]]|reflexivity]].
  apply (a_expr [num (sv_id v)] (PLit (dec_str (sv_id v))) (w "Ok") [G Par [w "Self"; sep2; W (sv_name v)]]); [discriminate|reflexivity|reflexivity|]. apply arg_afull. apply ok_arg; [reflexivity|]. apply path_arg; [apply self_path; exact Hn|reflexivity].
Qed.
Lemma unknown_reads : armed variant_arm (PName (q "id"), XCall (name_ "Err") [XCall (path_ "::mabo::buf::Error::UnknownVariant") [name_ "id"]]).
Proof.
  apply (a_expr [w "id"] (PName (q "id")) (w "Err") [G Par (q "::mabo::buf::Error::UnknownVariant(id)")]); [discriminate| |reflexivity|].
  - intros r. apply (name_pat (tx "id")); reflexivity.
  - apply unary_afull; [|reflexivity]. apply (call1_arg (tx "Err")); [reflexivity|reflexivity|]. apply (unary_arg (q "::mabo::buf::Error::UnknownVariant(id)")); [|reflexivity].
    apply (call_unary (q "::mabo::buf::Error::UnknownVariant") [w "id"]); [apply (pathy_abs (tx "mabo") [tx "buf"; tx "Error"; tx "UnknownVariant"]); reflexivity|]. apply (args_sep [[w "id"]]). constructor; [|constructor]. apply (var_arg lower text). reflexivity.
Qed.
Definition variant_call : rx := call_ (tx "decode_variant_id") [XPath [W r_]].
Lemma variant_scrut_reads : scrut (buf (tx "decode_variant_id") [[W r_]] ++ [quest; dot; w "value"]) (XField (XTry variant_call) (tx "value")).
Proof.
  intros f Hf l r. pose proof (pathy_unary_atom (mabo_buf ++ [w "decode_variant_id"]) (EL f) (BL f) false (G Par [W r_] :: quest :: dot :: w "value" :: G Brc l :: r) (pathy_buf (tx "decode_variant_id") eq_refl) I) as H.
  assert (Hr : p_args (EL f) [W r_] = Some [XPath [W r_]]).
  { apply (args_sep [[W r_]] [XPath [W r_]]); [constructor; [apply (var_arg lower text); reflexivity|constructor]|]. unfold buf in Hf. rewrite !rsizes_app, !rsizes_cons, !rsize_group in Hf. cbn [separated map] in *. lia. }
  assert (E : (buf (tx "decode_variant_id") [[W r_]] ++ [quest; dot; w "value"]) ++ G Brc l :: r = (mabo_buf ++ [w "decode_variant_id"]) ++ G Par [W r_] :: quest :: dot :: w "value" :: G Brc l :: r) by reflexivity.
  rewrite E, H. cbn [p_post]. rewrite Hr. reflexivity.
Qed.
Lemma decode_enum_reads vs vs' k : Forall variant_ok vs -> all_opt (Lower.lower_variant look params) vs = Some vs' ->
  exists body, read_body (variant_scrut ++ [G Brc (terminated comma (map (decode_variant bc) vs ++ [variant_arm]))]) = Some body
    /\ decode_fn lower text body (map (fun v => (sv_name v, Lower.lower_kind (ss_kind (sv_fields v)))) vs) k (gen_decode_def bt (DEnum vs')).
Proof.
  intros Hok Hl.
  assert (Hm : exists arms, Forall2 armed (map (decode_variant bc) vs) arms /\ length vs = length vs' /\
     Forall2 (fun '(p, x) '((n, k), (i, b)) => p = PLit (dec_str i) /\ exists l, (match k with KUnit => l = [XTail x] | _ => x = XBlock l end) /\ fields_fn lower text l (q "Self::" ++ [W n]) k b)
       arms (combine (map (fun v => (sv_name v, Lower.lower_kind (ss_kind (sv_fields v)))) vs) (map (fun v => (v_id v, gen_decode_fields bt (v_fields v))) vs'))).
  { revert vs' Hl. induction Hok as [|v vs Hv Hok IH]; intros vs' Hl; cbn [all_opt] in Hl.
    - injection Hl as <-. exists []. split; [constructor|]. split; [reflexivity|constructor].
    - destruct (Lower.lower_variant look params v) as [v'|] eqn:E; [|discriminate]. destruct (all_opt _ vs) as [r|]; [|discriminate]. injection Hl as <-. destruct (IH r eq_refl) as (arms & H1 & H2 & H3).
      destruct (decode_arm_reads v v' Hv E) as ((p & x) & A1 & A2 & A3). exists ((p, x) :: arms). cbn [map combine]. split; [constructor; assumption|]. split; [cbn [length]; congruence|]. constructor; [|exact H3]. rewrite <- A3. exact A2. }
  destruct Hm as (arms & H1 & H2 & H3). exists [XTail (XMatch (XField (XTry variant_call) (tx "value")) (arms ++ [(PName (q "id"), XCall (name_ "Err") [XCall (path_ "::mabo::buf::Error::UnknownVariant") [name_ "id"]])]))]. split.
  - apply (read_blk look params). apply stm_blk; [|cbn; lia].
    change (variant_scrut ++ [G Brc (terminated comma (map (decode_variant bc) vs ++ [variant_arm]))])
      with (w "match" :: (buf (tx "decode_variant_id") [[W r_]] ++ [quest; dot; w "value"]) ++ [G Brc (terminated comma (map (decode_variant bc) vs ++ [variant_arm]))]).
    apply (stm_match look params); [exact variant_scrut_reads|]. apply Forall2_app; [exact H1|]. constructor; [exact unknown_reads|constructor].
  - exists variant_call, arms. split; [reflexivity|]. split; [|split; [rewrite !map_length; exact H2|exact H3]]. apply (m_call lower text RDecodeVariantId). constructor; [exact (m_var lower text r_)|constructor].
Qed.
End DecodeFn.
