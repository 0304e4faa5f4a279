(** The emitted functions are read back as trees of the intended meaning: decoding and whole functions (used in PropRustText.v). *)
From Verif Require Import Base Varint Wire Codec Syntax Parser Compiler RustFile RustRead RustMeans RustReadProofs.
From Verif Require RustCode RustTokens RustTokensProofs Lower LowerProofs.
Import RustCode.
Require Coq.Strings.String.
Import Coq.Strings.String.StringSyntax.
Local Open Scope N_scope.

Section Decode.
Variable bc : bool.
Let bt : bytes_type := if bc then BBytes else BVecU8.
Variable look : list str -> str -> option nat.
Variable params : list str.
Notation lower := (Lower.lower_type look params).
Notation text := (RustFile.data_ty bc).
Notation means := (means lower text).
Notation block := (block lower text).
Notation stmts := (stmts lower text).
Notation decode_of := (RustFile.decode_of bc).
Notation gen_decode := (gen_decode bt).
Notation ok_ty := RustTokensProofs.ok_ty.

(** * Paths to the decode functions of types *)
Lemma segment_false first s : RustTokens.segment_name first s = true -> RustTokens.segment_name false s = true.
Proof.
  destruct first; [|trivial]. unfold RustTokens.segment_name. destruct (RustTokens.is_ident s); [trivial|]. cbn [orb]. unfold RustTokens.one_of. cbn [existsb].
  destruct (str_eqb s (tx "self")); [trivial|]. destruct (str_eqb s (tx "super")); [trivial|]. destruct (str_eqb s (tx "crate")); [trivial|]. destruct (str_eqb s (tx "Self")); [trivial|]. discriminate.
Qed.
(** [::<args>] behind the last name of the path, if there are arguments. *)
Definition turbo (gs : list sty) : list rt := if gs then [] else sep2 :: angle (terminated comma (map text gs)).
Lemma segments_ext gs : forallb def_type_ok gs = true -> forallb ok_ty gs = true -> forall path name first n rest,
  RustTokensProofs.path_ok first path name (negb (match gs with [] => true | _ => false end)) = true -> (S (length path) < n)%nat -> nosep rest ->
  p_segments n first (path_to path ++ W name :: turbo gs ++ [sep2; w "decode"] ++ rest) = Some (path_to path ++ W name :: turbo gs ++ [sep2; w "decode"], rest).
Proof.
  intros Hd Ho. induction path as [|s path IH]; intros name first n rest Hp Hn Hr; cbn [length] in Hn.
  - cbn [path_to flat_map app RustTokensProofs.path_ok] in *. apply andb_true_iff in Hp as [Hs Ha]. destruct n as [|[|n]]; [lia|lia|].
    assert (Hend : forall n, p_segments (S n) false (w "decode" :: rest) = Some ([w "decode"], rest)).
    { intros m. apply (segments_plain [] (tx "decode") false (S m) rest); [reflexivity|reflexivity|cbn; lia|exact Hr]. }
    destruct gs as [|g gs].
    + cbn [turbo app]. remember (S n) as m eqn:Em. cbn [p_segments]. rewrite Hs. change (is_p sep2 sep2) with true. cbv iota. change (is_p lt (w "decode")) with false. cbv iota.
      rewrite Em, Hend. reflexivity.
    + cbn [negb orb] in Ha. set (gs' := g :: gs) in *. assert (Ht : turbo gs' = sep2 :: lt :: terminated comma (map text gs') ++ [gt]) by reflexivity. rewrite Ht. cbn [app].
      remember (S n) as m eqn:Em. cbn [p_segments]. rewrite Hs. change (is_p sep2 sep2) with true. cbv iota. change (is_p lt lt) with true. cbv iota.
      rewrite <- app_assoc. cbn [app]. rewrite angle_args, (some_data bc gs' Hd Ho), Ha. cbn [andb]. change (is_p sep2 sep2) with true. cbv iota. rewrite Em, Hend. cbn [option_map]. rewrite <- app_assoc. reflexivity.
  - cbn [RustTokensProofs.path_ok] in Hp. apply andb_true_iff in Hp as [Hs Hp]. destruct n as [|n]; [lia|]. specialize (IH name false n rest Hp ltac:(lia) Hr).
    change (path_to (s :: path)) with (W s :: sep2 :: path_to path). cbn [app]. cbn [p_segments]. rewrite Hs. change (is_p sep2 sep2) with true. cbv iota.
    assert (Hh : exists s' r, path_to path ++ W name :: turbo gs ++ [sep2; w "decode"] ++ rest = W s' :: r).
    { destruct path as [|s' path]; [eexists _, _; reflexivity|]. eexists _, _. reflexivity. }
    destruct Hh as (s' & r & Hh). cbn [app] in *. rewrite Hh in *. change (is_p lt (W s')) with false. cbv iota. rewrite IH. reflexivity.
Qed.
Lemma pathy_ext path name gs : forallb def_type_ok gs = true -> ok_ty (SExternal path name gs) = true -> pathy (path_to path ++ W name :: turbo gs ++ [sep2; w "decode"]).
Proof.
  intros Hd Ho. cbn [RustTokensProofs.ok_ty] in Ho. apply andb_true_iff in Ho as [Hp Ho].
  assert (Hh : exists s r, path_to path ++ W name :: turbo gs ++ [sep2; w "decode"] = W s :: r /\ RustTokens.segment_name true s = true).
  { destruct path as [|s path]; cbn [RustTokensProofs.path_ok] in Hp; apply andb_true_iff in Hp as [Hs _]; eexists _, _; (split; [reflexivity|exact Hs]). }
  destruct Hh as (s & r & Hh & Hs). split; [exists (W s), r; split; [exact Hh|exact Hs]|]. intros rest Hr.
  assert (E : (path_to path ++ W name :: turbo gs ++ [sep2; w "decode"]) ++ rest = path_to path ++ W name :: turbo gs ++ [sep2; w "decode"] ++ rest).
  { rewrite <- app_assoc. cbn [app]. rewrite <- app_assoc. reflexivity. }
  unfold p_path. rewrite Hh at 1. cbn [app]. change (is_p sep2 (W s)) with false. cbv iota. rewrite E at 2. apply segments_ext; try assumption.
  rewrite app_length, app_length. cbn [length]. rewrite app_length. cbn [length]. assert (length path <= length (path_to path))%nat; [|lia].
  unfold path_to. clear. induction path as [|x path IH]; [cbn; lia|]. cbn [flat_map app length]. lia.
Qed.
Lemma segment_hd2 s r : RustTokens.segment_name true s = true -> hd2 (W s :: r) = true.
Proof.
  intros H. assert (Hk : forall k, RustTokens.segment_name true k = false -> str_eqb s k = false).
  { intros k Hk. destruct (str_eqb s k) eqn:E; [|reflexivity]. apply str_eqb_eq in E. subst. congruence. }
  cbn [hd2 is_w is_p is_block semi]. rewrite !Hk by reflexivity. reflexivity.
Qed.

(** * Decoding *)
Definition decoded (ts : list rt) (x : rx) (e : expr) : Prop := unary ts x /\ means x e /\ hd1 ts = true /\ blk ts [XTail x].
Lemma decoded_plain ts x e : unary ts x -> means x e -> hd2 ts = true -> decoded ts x e.
Proof. intros H Hm Hh. split; [exact H|]. split; [exact Hm|]. split; [apply hd2_hd1; exact Hh|]. apply tail_blk; [|exact Hh]. apply term1_arg; [apply unary_term1; exact H|apply hd2_hd1; exact Hh]. Qed.
Lemma r_arg : hd1 [W r_] = true /\ arg [W r_] (XPath [W r_]).
Proof. apply (var_arg lower text). reflexivity. Qed.
Lemma r_means : means (XPath [W r_]) (EVar x_r).
Proof. exact (m_var lower text r_). Qed.
Lemma decoded_call f l xs es : args l xs -> Forall2 means xs es -> decoded (buf (fun_name f) l) (call_ (fun_name f) xs) (ECall f es).
Proof. intros Ha Hm. apply decoded_plain; [apply buf_unary; [apply fun_segment|exact Ha]|constructor; exact Hm|reflexivity]. Qed.
Definition decode_claim (t : sty) : Prop := forall root u, code_type_ok t = true -> ok_ty t = true -> lower t = Some u -> exists x, decoded (decode_of root t) x (gen_decode root u).
Lemma decode_elem t u : decode_claim t -> code_type_ok t = true -> ok_ty t = true -> lower t = Some u ->
  exists x, (hd1 (clos [r_] (decode_of false t)) = true /\ arg (clos [r_] (decode_of false t)) x) /\ means x (EClos [x_r] (gen_decode false u)).
Proof.
  intros IH Hc Ho Hl. destruct (IH false u Hc Ho Hl) as (x & _ & Hm & _ & Hb). exists (XClosure [r_] [XTail x]). split; [apply clos_arg; [reflexivity|exact Hb]|]. constructor. constructor. exact Hm.
Qed.
Lemma decode_one f t u : decode_claim t -> code_type_ok t = true -> ok_ty t = true -> lower t = Some u ->
  exists x, decoded (buf (fun_name f) [[W r_]; clos [r_] (decode_of false t)]) x (ECall f [EVar x_r; EClos [x_r] (gen_decode false u)]).
Proof.
  intros IH Hc Ho Hl. destruct (decode_elem t u IH Hc Ho Hl) as (x & Hx & Hm). eexists. apply decoded_call.
  - constructor; [exact r_arg|]. constructor; [exact Hx|constructor].
  - constructor; [exact r_means|]. constructor; [exact Hm|constructor].
Qed.
Lemma decode_two f k v k' v' : decode_claim k -> decode_claim v -> code_type_ok k = true -> code_type_ok v = true -> ok_ty k = true -> ok_ty v = true -> lower k = Some k' -> lower v = Some v' ->
  exists x, decoded (buf (fun_name f) [[W r_]; clos [r_] (decode_of false k); clos [r_] (decode_of false v)]) x
    (ECall f [EVar x_r; EClos [x_r] (gen_decode false k'); EClos [x_r] (gen_decode false v')]).
Proof.
  intros IHk IHv Hck Hcv Hok Hov Hk Hv. destruct (decode_elem k k' IHk Hck Hok Hk) as (x & Hx & Hm). destruct (decode_elem v v' IHv Hcv Hov Hv) as (y & Hy & Hmy). eexists. apply decoded_call.
  - constructor; [exact r_arg|]. constructor; [exact Hx|]. constructor; [exact Hy|constructor].
  - constructor; [exact r_means|]. constructor; [exact Hm|]. constructor; [exact Hmy|constructor].
Qed.
Lemma decode_none f : decoded (buf (fun_name f) [[W r_]]) (call_ (fun_name f) [XPath [W r_]]) (ECall f [EVar x_r]).
Proof. apply decoded_call; [constructor; [exact r_arg|constructor]|]. constructor; [exact r_means|constructor]. Qed.
Lemma ok_pathy : pathy ok_.
Proof.
  split; [eexists _, _; split; [reflexivity|reflexivity]|]. intros rest Hr. unfold ok_. unfold p_path. cbn [app]. change (is_p sep2 (W [79; 107])) with false. cbv iota.
  remember (length rest) as m. cbn [length]. rewrite <- Heqm. cbn [p_segments]. change (RustTokens.segment_name true [79; 107]) with true. cbv iota.
  change (is_p sep2 (P [58; 58])) with true. change (is_p lt (P [60])) with true. cbv iota.
  assert (Ha : forall r, angle_end 0 (P [95] :: P [44] :: P [58; 58] :: W (tx "mabo") :: P [58; 58] :: W (tx "buf") :: P [58; 58] :: W (tx "Error") :: P [62] :: r)
    = Some ([P [95]; P [44]; P [58; 58]; W (tx "mabo"); P [58; 58]; W (tx "buf"); P [58; 58]; W (tx "Error")], r)) by reflexivity.
  change [109; 97; 98; 111] with (tx "mabo"). change [98; 117; 102] with (tx "buf"). change [69; 114; 114; 111; 114] with (tx "Error"). rewrite Ha. clear Ha.
  match goal with |- context [some_types ?l] => assert (Hs : some_types l = true) by (vm_compute; reflexivity); rewrite Hs end. change (RustTokens.takes_args [79; 107]) with true. cbn [andb].
  destruct rest as [|c r]; [reflexivity|]. rewrite (nosep_is c r Hr). reflexivity.
Qed.
(** The members of a tuple, each with a question mark. *)
Lemma decode_members ts us : (forall t, In t ts -> decode_claim t) -> forallb code_type_ok ts = true -> forallb ok_ty ts = true -> all_opt lower ts = Some us ->
  exists xs, args (map (fun t => decode_of false t ++ [quest]) ts) (map XTry xs) /\ Forall2 means xs (map (gen_decode false) us).
Proof.
  intros IH. revert us. induction ts as [|t ts IHts]; intros us Hc Ho Hl; cbn [all_opt] in Hl.
  - injection Hl as <-. exists []. split; constructor.
  - cbn [forallb] in Hc, Ho. apply andb_true_iff in Hc as [Hct Hc]. apply andb_true_iff in Ho as [Hot Ho]. destruct (lower t) as [u|] eqn:E; [|discriminate]. destruct (all_opt lower ts) as [us'|]; [|discriminate].
    injection Hl as <-. destruct (IH t (or_introl eq_refl) false u Hct Hot E) as (x & H1 & H2 & H3 & _). destruct (IHts (fun t' Ht' => IH t' (or_intror Ht')) us' Hc Ho eq_refl) as (xs & G1 & G2).
    exists (x :: xs). split; [|constructor; assumption]. cbn [map]. constructor; [|exact G1]. split; [apply hd1_app; exact H3|]. apply term1_arg; [|apply hd1_app; exact H3].
    apply unary_term1, unary_try. exact H1.
Qed.
Lemma tuple_unary ts xs : args ts xs -> (2 <= length ts)%nat -> unary [G Par (terminated comma ts)] (XTuple xs).
Proof.
  intros H Hl f Hf rest Hr. rsz. unfold pun, ppo. cbn [app p_unary]. change (is_p amp (G Par (terminated comma ts))) with false. change (is_p star (G Par (terminated comma ts))) with false. cbv iota.
  cbn [p_atom]. rewrite (args_term _ _ H) by lia. destruct H as [|? x ? ? _ H]; [cbn in Hl; lia|]. destruct H as [|? y ? ? _ H]; [cbn in Hl; lia|]. reflexivity.
Qed.
Lemma block_unary l b : blk l b -> unary [G Brc l] (XBlock b).
Proof.
  intros H f Hf rest Hr. rsz. unfold pun, ppo. cbn [app p_unary]. change (is_p amp (G Brc l)) with false. change (is_p star (G Brc l)) with false. cbv iota. cbn [p_atom].
  destruct f as [|f]; [lia|]. rewrite BL_S. fold (pst f). rewrite H by lia. reflexivity.
Qed.
Lemma block_blk l b : blk l b -> blk [G Brc l] [XTail (XBlock b)].
Proof.
  intros H f Hf. rsz. unfold pst. cbn [length p_stmts is_block is_p semi is_w]. destruct f as [|f]; [lia|]. rewrite BL_S. fold (pst f). rewrite H by lia. reflexivity.
Qed.
Lemma decode_tuple (root : bool) ts us : (forall t, In t ts -> decode_claim t) -> ((2 <=? length ts) && (length ts <=? 12))%nat = true -> forallb code_type_ok ts = true -> forallb ok_ty ts = true ->
  all_opt lower ts = Some us -> exists x, decoded (decode_of root (STuple ts)) x (gen_decode root (TTuple us)).
Proof.
  intros IH Hlen Hc Ho Hl. destruct (decode_members ts us IH Hc Ho Hl) as (xs & Ha & Hm).
  assert (Hg : gen_decode root (TTuple us) = ETupleOk (if root then Some (ECall (RDecode (ScU W64)) [EVar x_r]) else None) (map (gen_decode false) us)).
  { cbn [RustCode.gen_decode]. unfold tuple_len_ok. rewrite (all_opt_len _ _ _ Hl), Hlen. reflexivity. }
  rewrite Hg. cbn [RustFile.decode_of]. set (l := map (fun t => decode_of false t ++ [quest]) ts) in *.
  assert (Hok : unary (ok_ ++ [G Par [G Par (terminated comma l)]]) (XCall (XPath ok_) [XTuple (map XTry xs)])).
  { apply call_unary; [exact ok_pathy|]. apply (args_sep [[G Par (terminated comma l)]]). constructor; [|constructor]. split; [reflexivity|]. apply term1_arg; [|reflexivity].
    apply unary_term1, tuple_unary; [exact Ha|]. unfold l. rewrite map_length. apply andb_true_iff in Hlen as [Hlen _]. apply Nat.leb_le in Hlen. exact Hlen. }
  assert (Hoa : arg (ok_ ++ [G Par [G Par (terminated comma l)]]) (XCall (XPath ok_) [XTuple (map XTry xs)])) by (apply term1_arg; [apply unary_term1; exact Hok|reflexivity]).
  destruct root.
  - destruct (decode_none (RDecode (ScU W64))) as (H1 & H2 & H3 & _).
    assert (Hb : blk ((buf (fun_name (RDecode (ScU W64))) [[W r_]] ++ [quest; semi]) ++ ok_ ++ [G Par [G Par (terminated comma l)]])
       ([XSemi (XTry (call_ (fun_name (RDecode (ScU W64))) [XPath [W r_]]))] ++ [XTail (XCall (XPath ok_) [XTuple (map XTry xs)])])).
    { apply stm_tail; [|rewrite app_length; cbn; lia|exact Hoa|reflexivity]. change (buf (fun_name (RDecode (ScU W64))) [[W r_]] ++ [quest; semi]) with ((buf (fun_name (RDecode (ScU W64))) [[W r_]] ++ [quest]) ++ [semi]).
      apply stm_expr; [|reflexivity]. apply term1_arg; [|reflexivity]. apply unary_term1, unary_try. exact H1. }
    eexists. split; [apply block_unary; exact Hb|]. split; [|split; [reflexivity|apply block_blk; exact Hb]]. apply m_tuple_len; assumption.
  - assert (Hb : blk (ok_ ++ [G Par [G Par (terminated comma l)]]) [XTail (XCall (XPath ok_) [XTuple (map XTry xs)])]) by (apply tail_blk; [exact Hoa|reflexivity]).
    eexists. split; [apply block_unary; exact Hb|]. split; [|split; [reflexivity|apply block_blk; exact Hb]]. apply m_tuple. exact Hm.
Qed.
Lemma box_unary a : flat a -> some_types a = true -> unary ([W (tx "Box"); sep2; lt] ++ a ++ [gt; sep2; w "decode"; G Par [W r_]]) (XCall (XPath ([W (tx "Box"); sep2; lt] ++ a ++ [gt; sep2; w "decode"])) [XPath [W r_]]).
Proof.
  intros Hf Hs. assert (E : [W (tx "Box"); sep2; lt] ++ a ++ [gt; sep2; w "decode"; G Par [W r_]] = ([W (tx "Box"); sep2; lt] ++ a ++ [gt; sep2; w "decode"]) ++ [G Par [W r_]]) by (cbn [app]; rewrite <- app_assoc; reflexivity).
  rewrite E. apply call_unary; [|apply (args_sep [[W r_]]); constructor; [exact r_arg|constructor]].
  split; [eexists _, _; split; [reflexivity|reflexivity]|]. intros rest Hr. unfold p_path. cbn [app]. change (is_p sep2 (W (tx "Box"))) with false. cbv iota.
  assert (Hn : exists n, length (W (tx "Box") :: sep2 :: lt :: (a ++ [gt; sep2; w "decode"]) ++ rest) = S (S n)) by (eexists; reflexivity). destruct Hn as (n & ->). remember (S n) as m eqn:Em. cbn [p_segments].
  change (RustTokens.segment_name true (tx "Box")) with true. change (is_p sep2 sep2) with true. change (is_p lt lt) with true. cbv iota. rewrite <- app_assoc. rewrite Hf. cbn [app angle_end]. change (is_p gt gt) with true. cbn [option_map]. rewrite app_nil_r, Hs.
  change (RustTokens.takes_args (tx "Box")) with true. cbn [andb]. change (is_p sep2 sep2) with true. cbv iota. rewrite Em.
  pose proof (segments_plain [] (tx "decode") false (S n) rest eq_refl eq_refl ltac:(cbn; lia) Hr) as Hd. cbn [segs map separated app] in Hd. unfold w. rewrite Hd. reflexivity.
Qed.
Lemma decode_reads2 t : decode_claim t /\ match t with SVec t | SHashSet t => decode_claim t | SHashMap k v => decode_claim k /\ decode_claim v | _ => True end.
Proof.
  induction t as [p|t IH|k v IHk IHv|t IH|t IH|t IH|ts IH|t n IH|path name gs IH] using LowerProofs.sty_ind2;
    (split; [intros root u Hc Ho Hl; cbn [code_type_ok] in Hc; cbn [RustTokensProofs.ok_ty] in Ho|try exact I; try (apply IH); try (split; [apply IHk|apply IHv])]).
  - cbn [Lower.lower_type] in Hl. injection Hl as <-.
    assert (Hs : forall f, fun_name f = tx "decode_" ++ word bc p -> exists x, decoded (buf (tx "decode_" ++ word bc p) [[W r_]]) x (ECall f [EVar x_r])).
    { intros f <-. eexists. apply decode_none. }
    destruct p; cbn [Lower.lower_prim RustCode.gen_decode RustFile.decode_of]; unfold decode_call.
    all: try (apply Hs; unfold bt; first [reflexivity | destruct bc; reflexivity]).
    + eexists. apply decoded_plain; [apply (box_unary [W (tx "str")]); [intros d r0; cbn; destruct (angle_end d r0) as [[? ?]|]; reflexivity|vm_compute; reflexivity]|apply m_decode_box; exact r_means|reflexivity].
    + eexists. apply decoded_plain; [apply (box_unary [G Brk [W (tx "u8")]]); [intros d r0; cbn; destruct (angle_end d r0) as [[? ?]|]; reflexivity|vm_compute; reflexivity]|apply m_decode_box_bytes; exact r_means|reflexivity].
  - cbn [Lower.lower_type] in Hl. destruct (lower t) as [u'|] eqn:E; [|discriminate]. injection Hl as <-. exact (decode_one RDecodeVec t u' (proj1 IH) Hc Ho E).
  - apply andb_true_iff in Hc as [Hck Hcv]. apply andb_true_iff in Ho as [Hok Hov]. cbn [Lower.lower_type] in Hl. destruct (lower k) as [k'|] eqn:Ek; [|discriminate]. destruct (lower v) as [v'|] eqn:Ev; [|discriminate]. injection Hl as <-.
    exact (decode_two RDecodeMap k v k' v' (proj1 IHk) (proj1 IHv) Hck Hcv Hok Hov Ek Ev).
  - cbn [Lower.lower_type] in Hl. destruct (lower t) as [u'|] eqn:E; [|discriminate]. injection Hl as <-. exact (decode_one RDecodeSet t u' (proj1 IH) Hc Ho E).
  - cbn [Lower.lower_type] in Hl. destruct (lower t) as [u'|] eqn:E; [|discriminate]. injection Hl as <-. exact (decode_one RDecodeOption t u' (proj1 IH) Hc Ho E).
  - apply andb_true_iff in Hc as [Hz Hc]. cbn [Lower.lower_type] in Hl. destruct (lower t) as [u'|] eqn:E; [|discriminate]. injection Hl as <-.
    destruct t as [p|t|k v|t| | | | |]; try discriminate Hz; cbn [code_type_ok RustTokensProofs.ok_ty Lower.lower_type] in *.
    + assert (Hs : forall f, fun_name f = tx "decode_" ++ tx "non_zero_" ++ word bc p -> exists x, decoded (buf (tx "decode_" ++ tx "non_zero_" ++ word bc p) [[W r_]]) x (ECall f [EVar x_r])).
      { intros f <-. eexists. apply decode_none. }
      clear IH. destruct p; try discriminate Hz; injection E as <-; cbn [Lower.lower_prim RustCode.gen_decode RustFile.decode_of]; unfold decode_call;
        (apply Hs; unfold bt; first [reflexivity | destruct bc; reflexivity]).
    + destruct (lower t) as [u2|] eqn:E2; [|discriminate]. injection E as <-. exact (decode_one RDecodeNzVec t u2 (proj2 IH) Hc Ho E2).
    + destruct (lower k) as [k'|] eqn:Ek; [|discriminate]. destruct (lower v) as [v'|] eqn:Ev; [|discriminate]. injection E as <-. apply andb_true_iff in Hc as [Hck Hcv]. apply andb_true_iff in Ho as [Hok Hov].
      exact (decode_two RDecodeNzMap k v k' v' (proj1 (proj2 IH)) (proj2 (proj2 IH)) Hck Hcv Hok Hov Ek Ev).
    + destruct (lower t) as [u2|] eqn:E2; [|discriminate]. injection E as <-. exact (decode_one RDecodeNzSet t u2 (proj2 IH) Hc Ho E2).
  - apply andb_true_iff in Hc as [Hlen Hc]. cbn [Lower.lower_type] in Hl. destruct (all_opt lower ts) as [us|] eqn:E; [|discriminate]. injection Hl as <-.
    apply decode_tuple; try assumption. intros t Ht. apply IH. exact Ht.
  - cbn [Lower.lower_type] in Hl. destruct (lower t) as [u'|] eqn:E; [|discriminate]. injection Hl as <-. exact (decode_one (RDecodeArray (N.to_nat n)) t u' (proj1 IH) Hc Ho E).
  - assert (Hp : pathy (path_to path ++ W name :: turbo gs ++ [sep2; w "decode"])) by (apply pathy_ext; [exact Hc|exact Ho]).
    assert (Hg : gen_decode root u = EDecodeM u (EVar x_r)).
    { cbn [Lower.lower_type] in Hl. destruct (all_opt lower gs) as [us|]; [|discriminate]. unfold Lower.lower_ref in Hl.
      destruct path as [|s path]; [destruct (Lower.position name params); [destruct us; [injection Hl as <-; reflexivity|discriminate]|]|]; (destruct (look _ name); [injection Hl as <-; reflexivity|discriminate]). }
    rewrite Hg. assert (E : decode_of root (SExternal path name gs) = (path_to path ++ W name :: turbo gs ++ [sep2; w "decode"]) ++ [G Par [W r_]]).
    { cbn [RustFile.decode_of]. rewrite <- app_assoc. cbn [app]. rewrite <- app_assoc. destruct gs; reflexivity. }
    rewrite E. eexists. apply decoded_plain.
    + apply call_unary; [exact Hp|]. apply (args_sep [[W r_]]). constructor; [exact r_arg|constructor].
    + exact (m_decode lower text path name gs u _ _ Hl r_means).
    + destruct Hp as [(t & r & Hh & Ht) _]. rewrite Hh. apply hd2_app. assert (Hw : exists s, t = W s) by (destruct path; injection Hh as <- _; eexists; reflexivity). destruct Hw as (s & ->). apply segment_hd2. exact Ht.
Qed.
Lemma decode_reads t : decode_claim t.
Proof. apply decode_reads2. Qed.

(** * Pieces of statements *)
Lemma sum_reads ts l : terms ts l -> (length l <= length ts)%nat -> forall f, (rsizes ts <= f)%nat -> forall rest, halt rest -> match rest with c :: _ => is_p plus c = false | [] => True end ->
  p_sum (EL f) (BL f) (ts ++ rest) = Some (mk_sum l, rest).
Proof.
  intros H Hl f Hf rest Hr Hp. unfold p_sum. replace (S (length (ts ++ rest))) with (length l + (S (length (ts ++ rest)) - length l))%nat by (rewrite app_length; lia).
  change (p_terms (EL f) (BL f)) with (ptm f). rewrite (H f Hf _ rest Hr). destruct rest as [|c r]; [reflexivity|]. rewrite Hp. reflexivity.
Qed.
Lemma unary_sum ts x : unary ts x -> ts <> [] -> forall f, (rsizes ts <= f)%nat -> forall rest, halt rest -> match rest with c :: _ => is_p plus c = false | [] => True end ->
  p_sum (EL f) (BL f) (ts ++ rest) = Some (x, rest).
Proof. intros H Hn. apply (sum_reads ts [x]); [apply term1_terms, unary_term1; exact H|]. destruct ts; [congruence|cbn; lia]. Qed.
Lemma path_sum p : pathy p -> forall f, (rsizes p <= f)%nat -> forall rest, halt rest -> match rest with c :: _ => is_p plus c = false | [] => True end -> p_sum (EL f) (BL f) (p ++ rest) = Some (XPath p, rest).
Proof. intros H. apply unary_sum; [apply pathy_unary; exact H|]. destruct H as [(t & r & -> & _) _]. discriminate. Qed.

Lemma names_read l : forallb RustTokens.is_ident l = true -> p_names (terminated comma (map (fun n => [W n]) l)) = Some l.
Proof.
  induction l as [|n l IH]; intros H; [reflexivity|]. cbn [forallb] in H. apply andb_true_iff in H as [Hn H]. cbn [map]. rewrite terminated_cons. cbn [app p_names]. rewrite Hn.
  change (is_p comma comma) with true. cbv iota. rewrite IH by exact H. reflexivity.
Qed.
Definition field_names (fs : sfields) : list str := map sf_name (ss_fields fs).
Definition idents (fs : sfields) : Prop := forallb RustTokens.is_ident (field_names fs) = true.
(** What stands behind a pattern. *)
Definition behind (r : list rt) : Prop := match r with P s :: _ => str_eqb [58; 58] s = false | _ => False end.
Lemma pat_head p r : pathy p -> p_pat (p ++ r) =
  match p_path (p ++ r) with Some (q, G Brk _ :: _) => None | Some (q, G d l :: r') => option_map (fun ns => (PFields q d ns, r')) (p_names l) | Some (q, r') => Some (PName q, r') | None => None end.
Proof.
  intros [(t & p' & -> & Ht) _]. cbn [app]. unfold p_pat. assert (E : is_p (P [95]) t = false) by (destruct t; try contradiction; [reflexivity|subst s; reflexivity]).
  destruct t; try contradiction; rewrite E; reflexivity.
Qed.
Lemma names_pat path fs rest : pathy path -> idents fs -> (ss_kind fs = SKUnit -> behind rest) ->
  exists p, p_pat (path ++ names_of fs ++ rest) = Some (p, rest)
    /\ binds p path (Lower.lower_kind (ss_kind fs)) (match ss_kind fs with SKUnit => [] | _ => field_names fs end).
Proof.
  intros Hp Hi Hr. rewrite (pat_head _ _ Hp). destruct Hp as [_ Hp]. unfold names_of, binds.
  assert (Hm : map (fun f => [W (sf_name f)]) (ss_fields fs) = map (fun n => [W n]) (field_names fs)) by (unfold field_names; rewrite map_map; reflexivity). rewrite Hm.
  destruct (ss_kind fs); cbn [app Lower.lower_kind].
  - rewrite Hp by exact I. rewrite names_read by exact Hi. eexists. split; reflexivity.
  - rewrite Hp by exact I. rewrite names_read by exact Hi. eexists. split; reflexivity.
  - specialize (Hr eq_refl). rewrite Hp by (destruct rest as [|[]]; try contradiction; exact Hr). destruct rest as [|[]]; try contradiction. eexists. split; [reflexivity|]. split; reflexivity.
Qed.
Lemma name_pat x rest : RustTokens.is_ident x = true -> behind rest -> p_pat (W x :: rest) = Some (PName [W x], rest).
Proof.
  intros Hx Hr. pose proof (pathy_var x Hx) as Hp. change (W x :: rest) with ([W x] ++ rest). rewrite (pat_head _ _ Hp). destruct Hp as [_ Hp]. rewrite Hp by (destruct rest as [|[]]; try contradiction; exact Hr).
  destruct rest as [|[]]; try contradiction. reflexivity.
Qed.

(** * Let *)
Lemma pst_let f n r : pst f (S n) (w "let" :: r) = match p_let (EL f) (BL f) r with Some (s, r') => option_map (cons s) (pst f n r') | None => None end.
Proof. reflexivity. Qed.
Lemma stm_let_self fs : idents fs -> exists p, stm (let_self fs) [XLet false p None (name_ "self")]
  /\ binds p (q "Self") (Lower.lower_kind (ss_kind fs)) (match ss_kind fs with SKUnit => [] | _ => field_names fs end).
Proof.
  intros Hi. assert (Hself : pathy [W (tx "Self")]) by (apply (pathy_rel (tx "Self") []); reflexivity).
  assert (Hp : forall rest, exists p, p_pat ([W (tx "Self")] ++ names_of fs ++ equals :: rest) = Some (p, equals :: rest)
     /\ binds p (q "Self") (Lower.lower_kind (ss_kind fs)) (match ss_kind fs with SKUnit => [] | _ => field_names fs end)).
  { intros rest. apply (names_pat [W (tx "Self")] fs (equals :: rest) Hself Hi). intros _. reflexivity. }
  exists (match Lower.lower_kind (ss_kind fs) with KNamed => PFields (q "Self") Brc (field_names fs) | KUnnamed => PFields (q "Self") Par (field_names fs) | KUnit => PName (q "Self") end).
  split; [|unfold binds; destruct (ss_kind fs); [reflexivity|reflexivity|split; reflexivity]].
  intros f Hf n rest. unfold let_self in *. rsz. cbn [app length Nat.add]. rewrite <- app_assoc. cbn [app]. rewrite pst_let. destruct (Hp (w "self" :: semi :: rest)) as (p & Hpat & Hb). unfold p_let.
  change (is_w "mut" (w "Self")) with false. cbv iota. cbn [app] in Hpat. change (w "Self") with (W (tx "Self")). rewrite Hpat. change (is_p equals equals) with true. cbv iota.
  pose proof (path_sum [w "self"] (pathy_rel (tx "self") [] eq_refl eq_refl) f ltac:(rsz; lia) (semi :: rest) (h_semi _) eq_refl) as Hs. cbn [app] in Hs. rewrite Hs.
  change (is_p semi semi) with true. cbv iota. assert (E : p = match Lower.lower_kind (ss_kind fs) with KNamed => PFields (q "Self") Brc (field_names fs) | KUnnamed => PFields (q "Self") Par (field_names fs) | KUnit => PName (q "Self") end).
  { unfold binds in Hb. destruct (ss_kind fs); cbn [Lower.lower_kind] in *; [exact Hb|exact Hb|exact (proj1 Hb)]. }
  rewrite E. destruct (pst f n rest); reflexivity.
Qed.
Lemma stm_var x t : RustTokens.is_ident x = true -> def_type_ok t = true -> ok_ty t = true ->
  stm (w "let" :: w "mut" :: W x :: colon :: text t ++ [equals; w "None"; semi]) [XLet true (PName [W x]) (Some (text t)) (name_ "None")].
Proof.
  intros Hx Hd Ho f Hf n rest. rsz. cbn [app length Nat.add]. rewrite <- app_assoc. cbn [app]. rewrite pst_let. unfold p_let. change (is_w "mut" (w "mut")) with true. cbv iota.
  rewrite (name_pat x _ Hx) by reflexivity. change (is_p equals colon) with false. change (is_p colon colon) with true. cbv iota. rewrite (noeq_upto _ _ (noeq_data bc t)), (one_data bc t Hd Ho).
  pose proof (path_sum [w "None"] (pathy_rel (tx "None") [] eq_refl eq_refl) f ltac:(rsz; lia) (semi :: rest) (h_semi _) eq_refl) as Hs. cbn [app] in Hs. rewrite Hs.
  change (is_p semi semi) with true. reflexivity.
Qed.
Definition next_call : rx := call_ (tx "decode_id") [XPath [W r_]].
Lemma stm_id : stm let_id [XLet false (PName [W x_id]) None (XTry next_call)].
Proof.
  assert (E : let_id = w "let" :: w "id" :: equals :: (buf (tx "decode_id") [[W r_]] ++ [quest]) ++ [semi]) by reflexivity. rewrite E. intros f Hf n rest. rsz.
  cbn [app length Nat.add]. rewrite pst_let. unfold p_let. change (is_w "mut" (w "id")) with false. cbv iota. rewrite (name_pat (tx "id")) by reflexivity. change (is_p equals equals) with true. cbv iota.
  pose proof (decode_none RDecodeId) as (Hu & _). change (fun_name RDecodeId) with (tx "decode_id") in Hu. set (call := buf (tx "decode_id") [[W r_]]) in *.
  pose proof (unary_sum _ _ (unary_try _ _ Hu) ltac:(discriminate) f ltac:(rsz; lia) (semi :: rest) (h_semi _) eq_refl) as Hs.
  assert (E2 : ((call ++ [quest]) ++ [semi]) ++ rest = (call ++ [quest]) ++ semi :: rest) by (rewrite <- (app_assoc _ [semi]); reflexivity). rewrite E2, Hs.
  change (is_p semi semi) with true. reflexivity.
Qed.

(** * Match *)
Definition afull (ts : list rt) (x : rx) : Prop := forall f, (rsizes ts <= f)%nat -> forall r, p_full (EL f) (BL f) (ts ++ comma :: r) = Some (x, comma :: r).
Inductive armed : list rt -> pat * rx -> Prop :=
| a_block pt p l b : pt <> [] -> (forall r, p_pat (pt ++ fat :: r) = Some (p, fat :: r)) -> blk l b -> armed (pt ++ fat :: [G Brc l]) (p, XBlock b)
| a_expr pt p t ts x : pt <> [] -> (forall r, p_pat (pt ++ fat :: r) = Some (p, fat :: r)) -> is_block t = false -> afull (t :: ts) x -> armed (pt ++ fat :: t :: ts) (p, x).
Lemma arm_reads ts a : armed ts a -> forall f n r, (rsizes ts <= f)%nat ->
  p_arms (EL f) (BL f) (S n) (ts ++ comma :: r) = option_map (cons a) (p_arms (EL f) (BL f) n r).
Proof.
  intros H f n r Hf. destruct H as [pt p l b Hne Hp Hb|pt p t ts x Hne Hp Ht Hx]; rsz; rewrite <- app_assoc; cbn [app p_arms].
  - specialize (Hp (G Brc l :: comma :: r)). destruct pt as [|t0 pt]; [congruence|]. cbn [app] in *. rewrite Hp. change (is_p fat fat) with true. cbv iota.
    destruct f as [|f]; [lia|]. rewrite BL_S. fold (pst f). rewrite Hb by lia. cbn [option_map]. change (is_p comma comma) with true. reflexivity.
  - specialize (Hp (t :: ts ++ comma :: r)). destruct pt as [|t0 pt]; [congruence|]. cbn [app] in *. rewrite Hp. change (is_p fat fat) with true. cbv iota.
    assert (E : match t :: ts ++ comma :: r with G Brc l :: r' => option_map (fun b => (XBlock b, r')) (BL f l) | _ => p_full (EL f) (BL f) (t :: ts ++ comma :: r) end = p_full (EL f) (BL f) (t :: ts ++ comma :: r)).
    { destruct t as [| | |[]]; try reflexivity. discriminate. }
    rewrite E. specialize (Hx f ltac:(rsz; lia) r). cbn [app] in Hx. rewrite Hx. change (is_p comma comma) with true. reflexivity.
Qed.
Lemma arms_read l arms : Forall2 armed l arms -> forall f n, (forall ts, In ts l -> (rsizes ts <= f)%nat) -> (length l < n)%nat -> p_arms (EL f) (BL f) n (terminated comma l) = Some arms.
Proof.
  induction 1 as [|ts a l arms Ha H IH]; intros f n Hf Hn; (destruct n as [|n]; [lia|]).
  - reflexivity.
  - cbn [length] in Hn. rewrite terminated_cons, (arm_reads _ _ Ha) by (apply Hf; left; reflexivity). rewrite IH; [reflexivity| |lia]. intros y Hy. apply Hf. right. exact Hy.
Qed.
(** In front of the arms. *)
Definition scrut (ts : list rt) (x : rx) : Prop := forall f, (rsizes ts <= f)%nat -> forall l r, p_unary (EL f) (BL f) false (ts ++ G Brc l :: r) = Some (x, G Brc l :: r).
Lemma stm_match sc x l arms : scrut sc x -> Forall2 armed l arms -> stm (w "match" :: sc ++ [G Brc (terminated comma l)]) [XTail (XMatch x arms)].
Proof.
  intros Hs Ha f Hf n rest. rsz. cbn [app length Nat.add]. rewrite <- app_assoc. cbn [app]. unfold pst. cbn [p_stmts]. change (is_p semi (w "match")) with false. change (is_block (w "match")) with false.
  change (is_w "let" (w "match")) with false. change (is_w "loop" (w "match")) with false. change (is_w "match" (w "match")) with true. cbv iota. rewrite Hs by lia. destruct f as [|f]; [lia|]. rewrite AL_S.
  rewrite (arms_read _ _ Ha).
  - fold (pst (S f)). destruct (pst (S f) n rest); reflexivity.
  - intros ts Hts. pose proof (rsizes_terminated comma l ts Hts). lia.
  - pose proof (length_terminated comma l). lia.
Qed.
Lemma stm_loop l b : blk l b -> stm [w "loop"; G Brc l] [XTail (XLoop b)].
Proof.
  intros Hb f Hf n rest. rsz. cbn [app length Nat.add]. unfold pst. cbn [p_stmts]. change (is_p semi (w "loop")) with false. change (is_block (w "loop")) with false.
  change (is_w "let" (w "loop")) with false. change (is_w "loop" (w "loop")) with true. cbv iota. destruct f as [|f]; [lia|]. rewrite BL_S. fold (pst f). rewrite Hb by lia. fold (pst (S f)). destruct (pst (S f) n rest); reflexivity.
Qed.
Lemma path_scrut p : pathy p -> scrut p (XPath p).
Proof. intros H f _ l r. rewrite (pathy_unary_atom p _ _ _ _ H) by reflexivity. reflexivity. Qed.
Lemma arg_afull ts x : arg ts x -> afull ts x.
Proof. intros H f Hf r. apply H; [exact Hf|constructor]. Qed.
Lemma unary_afull ts x : unary ts x -> hd1 ts = true -> afull ts x.
Proof. intros H Hh. apply arg_afull, term1_arg; [apply unary_term1; exact H|exact Hh]. Qed.
Lemma read_blk l b : blk l b -> read_body l = Some b.
Proof. intros H. unfold read_body. change (l_block (lvl (S (rsizes l))) l) with (pst (rsizes l) (S (length l)) l). apply H. lia. Qed.
End Decode.
