(** C88: the files of a project, and the projects of a directory. *)
From Verif Require Import Base Syntax Parser Package.
Require Coq.Strings.String.
Import Coq.Strings.String.StringSyntax.
Local Open Scope N_scope.

(** * Specification *)

(** [m] is found at the path [p] below [n], through links if [follow]. *)
Inductive reaches (follow : bool) : node -> path -> node -> Prop :=
| reach_file c : reaches follow (File c) [] (File c)
| reach_dir l : reaches follow (Dir l) [] (Dir l)
| reach_broken : reaches follow Broken [] Broken
| reach_link n : follow = false -> reaches follow (Link n) [] (Link n)
| reach_through n p m : follow = true -> reaches follow n p m -> reaches follow (Link n) p m
| reach_in l name n p m : In (name, n) l -> reaches follow n p m -> reaches follow (Dir l) (name :: p) m.
(** Neither the entry nor a directory it is in is left out. *)
Definition visible (skip : path -> bool) (p : path) : Prop := forall a b, p = a ++ b -> a <> [] -> skip a = false.
(** The name ends with [.mabo] and there is something before that. *)
Definition mabo_named (p : path) : Prop := exists dir stem, stem <> [] /\ p = dir ++ [stem ++ tx ".mabo"].
Definition selected (glob : str -> option (path -> bool)) (patterns : list str) (p : path) : Prop := exists pattern g, In pattern patterns /\ glob pattern = Some g /\ g p = true.
(** No directory has two entries of the same name. *)
Inductive proper : node -> Prop :=
| proper_file c : proper (File c)
| proper_dir l : NoDup (map fst l) -> (forall name n, In (name, n) l -> proper n) -> proper (Dir l)
| proper_link n : proper n -> proper (Link n)
| proper_broken : proper Broken.

(** * Proofs *)
Section NodeInd.
Variable P : node -> Prop.
Hypothesis HF : forall c, P (File c).
Hypothesis HD : forall l, (forall name n, In (name, n) l -> P n) -> P (Dir l).
Hypothesis HL : forall n, P n -> P (Link n).
Hypothesis HB : P Broken.
Fixpoint node_ind2 (n : node) : P n :=
  match n with
  | File c => HF c
  | Dir l => HD l ((fix go (l : list (str * node)) : forall name n, In (name, n) l -> P n :=
      match l with
      | [] => fun _ _ H => match H with end
      | (x, m) :: l' => fun name n H => match H with or_introl E => eq_rect m P (node_ind2 m) n (f_equal snd E) | or_intror H' => go l' name n H' end
      end) l)
  | Link m => HL m (node_ind2 m)
  | Broken => HB
  end.
End NodeInd.

Definition entry (p : path) (m : node) : option (path * node) := match m with Broken => None | _ => Some (p, m) end.
Lemma visible_nil skip : visible skip [].
Proof. intros a b H Ha. destruct a; [contradiction|discriminate]. Qed.
Lemma visible_cons (skip : path -> bool) x p : visible skip (x :: p) <-> skip [x] = false /\ visible (fun q => skip (x :: q)) p.
Proof.
  split.
  - intros H. split; [apply (H [x] p); [reflexivity|discriminate]|]. intros a b -> Ha. apply (H (x :: a) b); [reflexivity|discriminate].
  - intros [H1 H2] a b E Ha. destruct a as [|y a]; [contradiction|]. cbn [app] in E. injection E as <- E. destruct a as [|z a]; [exact H1|]. apply (H2 (z :: a) b E). discriminate.
Qed.
Lemma walk_in follow skip n : forall p e, In e (walk follow skip p n) <-> exists rel m, reaches follow n rel m /\ visible (fun q => skip (p ++ q)) rel /\ e = entry (p ++ rel) m.
Proof.
  induction n as [c|l IH|n IH|] using node_ind2; intros p e; cbn [walk].
  - split.
    + intros [<-|[]]. exists [], (File c). split; [constructor|]. split; [apply visible_nil|]. rewrite app_nil_r. reflexivity.
    + intros (rel & m & H & _ & ->). inversion H; subst. left. rewrite app_nil_r. reflexivity.
  - split.
    + intros [<-|H].
      * exists [], (Dir l). split; [constructor|]. split; [apply visible_nil|]. rewrite app_nil_r. reflexivity.
      * apply in_flat_map in H as ([x n] & Hin & H). cbn [fst snd] in H. destruct (skip (p ++ [x])) eqn:Es; [destruct H|]. apply (IH x n Hin) in H as (rel & m & Hr & Hv & ->).
        exists (x :: rel), m. split; [exact (reach_in _ _ _ _ _ _ Hin Hr)|]. split; [|rewrite <- app_assoc; reflexivity]. apply visible_cons. split; [exact Es|].
        intros a b E Ha. specialize (Hv a b E Ha). cbv beta in Hv. rewrite <- app_assoc in Hv. exact Hv.
    + intros (rel & m & H & Hv & ->). inversion H as [|l'| | | |l' x n rel' m' Hin Hr]; subst.
      * left. rewrite app_nil_r. reflexivity.
      * right. apply in_flat_map. exists (x, n). split; [exact Hin|]. cbn [fst snd]. apply visible_cons in Hv as [Hs Hv]. rewrite Hs. apply (IH x n Hin). exists rel', m. split; [exact Hr|]. split; [|rewrite <- app_assoc; reflexivity].
        intros a b E Ha. specialize (Hv a b E Ha). cbv beta in *. rewrite <- app_assoc. exact Hv.
  - destruct follow.
    + rewrite IH. split; intros (rel & m & H & Hv & ->); exists rel, m; (split; [|auto]); [apply reach_through; auto|]. inversion H; subst; [discriminate|assumption].
    + split.
      * intros [<-|[]]. exists [], (Link n). split; [constructor; reflexivity|]. split; [apply visible_nil|]. rewrite app_nil_r. reflexivity.
      * intros (rel & m & H & _ & ->). inversion H; subst; [|discriminate]. left. rewrite app_nil_r. reflexivity.
  - split.
    + intros [<-|[]]. exists [], Broken. split; [constructor|]. split; [apply visible_nil|reflexivity].
    + intros (rel & m & H & _ & ->). inversion H; subst. left. reflexivity.
Qed.
Lemma walk_paths follow skip n : proper n -> forall p, NoDup (map fst (somes (walk follow skip p n))).
Proof.
  induction n as [c|l IH|n IH|] using node_ind2; intros Hp p; cbn [walk].
  - repeat constructor. intros [].
  - inversion Hp as [|l' Hnd Hch| |]; subst. cbn [somes map]. constructor.
    + intros H. apply in_map_iff in H as ([q m] & E & H). cbn [fst] in E. subst q.
      assert (Hin : In (Some (p, m)) (flat_map (fun x => if skip (p ++ [fst x]) then [] else walk follow skip (p ++ [fst x]) (snd x)) l)).
      { clear -H. induction (flat_map _ l) as [|[e|] es IHe]; cbn [somes] in H; [destruct H| |right; auto]. destruct H as [->|H]; [left; reflexivity|right; auto]. }
      apply in_flat_map in Hin as ([x n] & _ & Hin). cbn [fst snd] in Hin. destruct (skip (p ++ [x])); [destruct Hin|]. apply walk_in in Hin as (rel & m' & _ & _ & E). unfold entry in E.
      assert (E' : p = (p ++ [x]) ++ rel) by (destruct m'; congruence). apply (f_equal (@length _)) in E'. rewrite !app_length in E'. cbn in E'. lia.
    + assert (G : forall l', incl l' l -> NoDup (map fst l') -> NoDup (map fst (somes (flat_map (fun x => if skip (p ++ [fst x]) then [] else walk follow skip (p ++ [fst x]) (snd x)) l')))).
      { assert (Sapp : forall A (a b : list (option A)), somes (a ++ b) = somes a ++ somes b) by (intros A a b; induction a as [|[x|] a IHa]; cbn [app somes]; congruence).
        assert (Sin : forall A (a : list (option A)) x, In x (somes a) <-> In (Some x) a).
        { intros A a x. induction a as [|[y|] a IHa]; cbn [somes]; [tauto| |rewrite IHa; cbn; split; [auto|intros [?|?]; [discriminate|assumption]]]. cbn. rewrite IHa. split; (intros [H|H]; [left; congruence|right; exact H]). }
        intros l'. induction l' as [|[x n] l' IHl]; intros Hi Hd; [constructor|]. cbn [flat_map fst snd map] in *. inversion Hd as [|? ? Hx Hd']; subst. rewrite Sapp, map_app.
        assert (Hrest := IHl (fun y Hy => Hi y (or_intror Hy)) Hd'). assert (Hxn : In (x, n) l) by (apply Hi; left; reflexivity). destruct (skip (p ++ [x])) eqn:Es; [exact Hrest|].
        pose proof (IH x n Hxn (Hch x n Hxn) (p ++ [x])) as H1. clear IHl.
        assert (Hdis : forall q, In q (map fst (somes (walk follow skip (p ++ [x]) n))) -> ~ In q (map fst (somes (flat_map (fun x0 => if skip (p ++ [fst x0]) then [] else walk follow skip (p ++ [fst x0]) (snd x0)) l')))).
        { intros q Hq Hq'. apply in_map_iff in Hq as ([q1 m1] & E1 & Hq). apply in_map_iff in Hq' as ([q2 m2] & E2 & Hq'). cbn [fst] in E1, E2. subst q1 q2. apply Sin in Hq, Hq'. apply walk_in in Hq as (r1 & m1' & _ & _ & E1).
          apply in_flat_map in Hq' as ([y n'] & Hy & Hq'). cbn [fst snd] in Hq'. destruct (skip (p ++ [y])); [destruct Hq'|]. apply walk_in in Hq' as (r2 & m2' & _ & _ & E2). unfold entry in E1, E2.
          assert (F1 : q = (p ++ [x]) ++ r1) by (destruct m1'; congruence). assert (F2 : q = (p ++ [y]) ++ r2) by (destruct m2'; congruence). rewrite F1, <- !app_assoc in F2. apply app_inv_head in F2. cbn [app] in F2. injection F2 as -> _.
          apply Hx. apply in_map_iff. exists (y, n'). auto. }
        revert H1 Hdis. generalize (map fst (somes (walk follow skip (p ++ [x]) n))). intros u Hu Hdis. induction Hu as [|q u Hq Hu IHu]; [exact Hrest|]. cbn [app]. constructor.
        - rewrite in_app_iff. intros [H|H]; [exact (Hq H)|exact (Hdis q (or_introl eq_refl) H)].
        - apply IHu. intros q' Hq'. apply Hdis. right. exact Hq'. }
      apply G; [apply incl_refl|exact Hnd].
  - inversion Hp; subst. destruct follow; [apply IH; assumption|]. repeat constructor. intros [].
  - constructor.
Qed.

(** ** Extensions *)
Lemma split_dot_spec s : match split_dot s with Some (b, a) => s = b ++ 46 :: a /\ ~ In 46 a | None => ~ In 46 s end.
Proof.
  induction s as [|c s IH]; [intros []|]. cbn [split_dot]. destruct (split_dot s) as [[b a]|]; [destruct IH as [-> H]; auto|]. destruct (N.eqb_spec c 46) as [->|Hc]; [auto|]. intros [H|H]; [congruence|exact (IH H)].
Qed.
Lemma last_dot (b b' a a' : str) : b ++ 46 :: a = b' ++ 46 :: a' -> ~ In 46 a -> ~ In 46 a' -> b = b' /\ a = a'.
Proof.
  revert b'. induction b as [|x b IH]; intros [|y b'] E Ha Ha'; cbn [app] in E.
  - split; congruence.
  - exfalso. apply Ha. assert (a = b' ++ 46 :: a') as -> by congruence. apply in_elt.
  - exfalso. apply Ha'. assert (a' = b ++ 46 :: a) as -> by congruence. apply in_elt.
  - destruct (IH b') as [-> ->]; [congruence|exact Ha|exact Ha'|]. split; congruence.
Qed.
Lemma extension_mabo p : match extension p with Some x => str_eqb x (tx "mabo") | None => false end = true <-> mabo_named p.
Proof.
  assert (Hd : ~ In 46 (tx "mabo")) by (vm_compute; intuition discriminate).
  unfold extension, mabo_named. destruct (rev p) as [|name r] eqn:E.
  - split; [discriminate|]. intros (dir & stem & _ & ->). rewrite rev_app_distr in E. discriminate.
  - assert (Ep : p = rev r ++ [name]) by (rewrite <- (rev_involutive p), E; reflexivity). pose proof (split_dot_spec name) as Hs. split.
    + destruct (split_dot name) as [[[|c b] a]|]; try discriminate. destruct Hs as [En _]. intros H. apply str_eqb_eq in H. subst a. exists (rev r), (c :: b). split; [discriminate|]. rewrite Ep, En. reflexivity.
    + intros (dir & stem & Hst & E2). rewrite Ep in E2. apply app_inj_tail in E2 as [_ E2]. change (tx ".mabo") with (46 :: tx "mabo") in E2. destruct (split_dot name) as [[b a]|].
      * destruct Hs as [En Ha]. destruct (last_dot b stem a (tx "mabo")) as [-> ->]; [congruence|exact Ha|exact Hd|]. destruct stem; [contradiction|]. apply str_eqb_refl.
      * exfalso. apply Hs. rewrite E2. apply in_elt.
Qed.

Section Claims.
Variables (glob : str -> option (path -> bool)) (read_toml : str -> option (list str)) (skip : path -> path -> bool).
Notation load := (load glob read_toml skip).
Notation discover := (discover glob read_toml skip).

Lemma patterns_ok ps : match compile_patterns glob ps with
  | POk gs => Forall2 (fun p g => glob p = Some g) ps gs
  | PErr e => exists a p b, ps = a ++ p :: b /\ glob p = None /\ Forall (fun x => glob x <> None) a /\ e = EPattern p end.
Proof.
  induction ps as [|p ps IH]; [constructor|]. cbn [compile_patterns]. destruct (glob p) as [g|] eqn:E.
  - destruct (compile_patterns glob ps) as [gs|e]; [constructor; assumption|]. destruct IH as (a & q & b & -> & H1 & H2 & H3). exists (p :: a), q, b. repeat split; auto. constructor; [congruence|assumption].
  - exists [], p, ps. auto.
Qed.
Lemma pick_ok base gs es : match pick_files base gs es with
  | POk fs => ~ In None es /\ fs = map (fun p => base ++ p) (filter (fun p => existsb (fun g => g p) gs && match extension p with Some x => str_eqb x (tx "mabo") | None => false end)%bool (map fst (somes es)))
  | PErr e => In None es /\ e = EWalk end.
Proof.
  induction es as [|[[p n]|] es IH]; cbn [pick_files].
  - split; [intros []|reflexivity].
  - destruct (pick_files base gs es) as [fs|e].
    + destruct IH as [H1 ->]. split; [intros [H|H]; [discriminate|exact (H1 H)]|]. cbn [somes map fst filter]. destruct (_ && _)%bool; reflexivity.
    + destruct IH as [H1 H2]. split; [right; exact H1|exact H2].
  - split; [left; reflexivity|reflexivity].
Qed.
Lemma somes_in {A} (a : list (option A)) x : In x (somes a) <-> In (Some x) a.
Proof. induction a as [|[y|] a IHa]; cbn [somes]; [tauto| |rewrite IHa; cbn; split; [auto|intros [?|?]; [discriminate|assumption]]]. cbn. rewrite IHa. split; (intros [H|H]; [left; congruence|right; exact H]). Qed.
Lemma collected base n patterns fs : collect_files glob skip base n patterns = POk fs ->
  (forall pattern, In pattern patterns -> glob pattern <> None)
  /\ (forall rel, reaches true n rel Broken -> ~ visible (skip base) rel)
  /\ (forall f, In f fs <-> exists rel m, f = base ++ rel /\ reaches true n rel m /\ visible (skip base) rel /\ mabo_named rel /\ selected glob patterns rel)
  /\ (proper n -> NoDup fs).
Proof.
  unfold collect_files. pose proof (patterns_ok patterns) as Hp. destruct (compile_patterns glob patterns) as [gs|e]; [|discriminate]. intros H. pose proof (pick_ok base gs (walk true (skip base) [] n)) as Hk. rewrite H in Hk. destruct Hk as [Hn ->].
  assert (Hsel : forall p, existsb (fun g => g p) gs = true <-> selected glob patterns p).
  { intros p. rewrite existsb_exists. unfold selected. clear -Hp. induction Hp as [|x g ps gs E Hp IH].
    - split; [intros (g & [] & _)|intros (x & g & [] & _)].
    - split.
      + intros (g' & [<-|Hg] & Hx); [exists x, g; repeat split; auto; left; reflexivity|]. destruct (proj1 IH (ex_intro _ g' (conj Hg Hx))) as (y & g2 & H1 & H2). exists y, g2. split; [right; exact H1|exact H2].
      + intros (y & g' & [<-|Hy] & Hx & Hg); [exists g'; split; [left; congruence|exact Hg]|]. destruct (proj2 IH (ex_intro _ y (ex_intro _ g' (conj Hy (conj Hx Hg))))) as (g2 & H1 & H2). exists g2. split; [right; exact H1|exact H2]. }
  split; [|split; [|split]].
  - intros pat Hin Hnone. clear -Hp Hin Hnone. induction Hp; [destruct Hin|]. destruct Hin as [->|Hin]; [congruence|auto].
  - intros rel Hr Hv. apply Hn. apply walk_in. exists rel, Broken. split; [exact Hr|]. split; [exact Hv|reflexivity].
  - intros f. rewrite in_map_iff. split.
    + intros (rel & <- & Hf). apply filter_In in Hf as [Hf Hc]. apply andb_true_iff in Hc as [Hg He]. apply in_map_iff in Hf as ([p m] & <- & Hf). apply somes_in in Hf. apply walk_in in Hf as (rel & m' & Hr & Hv & E). cbn [app fst] in *.
      assert (m' <> Broken) by (intros ->; discriminate). assert (p = rel) as -> by (destruct m'; cbn in E; congruence). exists rel, m'. repeat split; auto; [apply extension_mabo; exact He|apply Hsel; exact Hg].
    + intros (rel & m & -> & Hr & Hv & Hm & Hs). exists rel. split; [reflexivity|]. apply filter_In. split; [|apply andb_true_iff; split; [apply Hsel; exact Hs|apply extension_mabo; exact Hm]].
      assert (Hnb : m <> Broken) by (intros ->; apply Hn; apply walk_in; exists rel, Broken; auto). apply in_map_iff. exists (rel, m). split; [reflexivity|]. apply somes_in. apply walk_in. exists rel, m. split; [exact Hr|]. split; [exact Hv|]. destruct m; try reflexivity. contradiction.
  - intros Hpr. pose proof (walk_paths true (skip base) n Hpr []) as Hd. clear -Hd. induction (map fst (somes (walk true (skip base) [] n))) as [|p l IH]; [constructor|]. inversion Hd as [|? ? Hp Hd']; subst. cbn [filter].
    destruct (_ && _)%bool; [|exact (IH Hd')]. cbn [map]. constructor; [|exact (IH Hd')]. intros H. apply in_map_iff in H as (q & E & Hq). apply app_inv_head in E. subst q. apply filter_In in Hq as [Hq _]. exact (Hp Hq).
Qed.
Lemma child_in name l n : child name l = Some n -> In (name, n) l.
Proof. induction l as [|[x m] l IH]; cbn [child]; [discriminate|]. destruct (str_eqb x name) eqn:E; [apply str_eqb_eq in E; subst; intros H; left; congruence|]. intros H. right. exact (IH H). Qed.
Lemma in_child name l n : NoDup (map fst l) -> In (name, n) l -> child name l = Some n.
Proof.
  induction l as [|[x m] l IH]; intros Hd Hin; [destruct Hin|]. cbn [child map fst] in *. inversion Hd as [|? ? Hx Hd']; subst. destruct Hin as [E|Hin]; [injection E as -> ->; rewrite str_eqb_refl; reflexivity|].
  destruct (str_eqb x name) eqn:E; [|exact (IH Hd' Hin)]. apply str_eqb_eq in E. subst x. exfalso. apply Hx. apply in_map_iff. exists (name, n). auto.
Qed.
Lemma resolve_reaches n l : resolve n = Dir l -> reaches true n [] (Dir l).
Proof. induction n as [c|l'|n IH|]; cbn [resolve]; try discriminate; intros H; [injection H as ->; constructor|]. apply reach_through; auto. Qed.
Lemma reaches_resolve n p m : reaches true n p m -> match resolve n with Dir l => p = [] /\ m = Dir l \/ exists x q k, p = x :: q /\ In (x, k) l /\ reaches true k q m | r => p = [] /\ m = r end.
Proof. induction 1 as [c|l| |n E|n p m _ H IH|l x n p m Hin H IH]; cbn [resolve]; auto; [discriminate|]. right. exists x, p, n. auto. Qed.
Lemma read_reaches n c : read n = Some c -> reaches true n [] (File (Some c)).
Proof. induction n as [c'|l|n IH|]; cbn [read]; try discriminate; intros H; [subst; constructor|apply reach_through; auto]. Qed.
Lemma reaches_read n c : reaches true n [] (File (Some c)) -> read n = Some c.
Proof. intros H. remember (@nil str) as p eqn:Ep. remember (File (Some c)) as m eqn:Em. induction H; try discriminate; cbn [read]; [congruence|]. auto. Qed.
Lemma resolve_proper n : proper n -> proper (resolve n).
Proof. induction n; cbn [resolve]; intros H; try exact H. inversion H; subst; auto. Qed.
Lemma through n r p m : resolve n = r -> reaches true r p m -> reaches true n p m.
Proof. revert r. induction n as [c|l|n IH|]; cbn [resolve]; intros r <- H; try exact H. apply reach_through; [reflexivity|]. exact (IH _ eq_refl H). Qed.

(** The text of the project file below a directory. *)
Lemma toml_text n c : match resolve n with Dir l => option_map read (child (tx "Mabo.toml") l) | _ => None end = Some (Some c) -> reaches true n [tx "Mabo.toml"] (File (Some c)).
Proof.
  destruct (resolve n) as [| l | |] eqn:E; try discriminate. destruct (child (tx "Mabo.toml") l) as [k|] eqn:Ek; [|discriminate]. cbn [option_map]. intros H. apply (through n (Dir l)); [exact E|]. apply (reach_in _ _ _ k); [exact (child_in _ _ _ Ek)|]. apply read_reaches. congruence.
Qed.
Lemma text_toml n c : proper n -> reaches true n [tx "Mabo.toml"] (File (Some c)) -> match resolve n with Dir l => option_map read (child (tx "Mabo.toml") l) | _ => None end = Some (Some c).
Proof.
  intros Hp H. apply reaches_resolve in H. pose proof (resolve_proper n Hp) as Hr. destruct (resolve n) as [c'|l|m|]; try (destruct H as [H _]; discriminate). destruct H as [[H _]|(x & q & k & E & Hin & H)]; [discriminate|].
  injection E as <- <-. inversion Hr as [|l' Hd _| |]; subst. rewrite (in_child _ _ _ Hd Hin). cbn [option_map]. rewrite (reaches_read _ _ H). reflexivity.
Qed.
End Claims.

(** * Theorems *)

(** The files of a project that loads: everything below its directory that is called [x.mabo], is not left out by the ignore rules, and is selected by one of the patterns of the
    project file; each once. *)
Theorem C88_files : forall glob read_toml skip base n pj, load glob read_toml skip base n = POk pj ->
  pj_path pj = base ++ [tx "Mabo.toml"]
  /\ (proper n -> NoDup (pj_files pj))
  /\ exists c patterns, reaches true n [tx "Mabo.toml"] (File (Some c)) /\ read_toml c = Some patterns
     /\ forall f, In f (pj_files pj) <-> exists rel m, f = base ++ rel /\ reaches true n rel m /\ visible (skip base) rel /\ mabo_named rel /\ selected glob patterns rel.
Proof.
  intros glob read_toml skip base n pj H. unfold load in H. destruct (match resolve n with Dir l => _ | _ => None end) as [[c|]|] eqn:Et; try discriminate. destruct (read_toml c) as [patterns|] eqn:Er; [|discriminate].
  destruct (collect_files glob skip base n patterns) as [fs|e] eqn:Ec; [|discriminate]. assert (pj = Project (base ++ [tx "Mabo.toml"]) fs) as -> by congruence. cbn [pj_path pj_files].
  destruct (collected glob skip base n patterns fs Ec) as (_ & _ & H3 & H4). split; [reflexivity|]. split; [exact H4|]. exists c, patterns. split; [exact (toml_text n c Et)|]. split; [exact Er|exact H3].
Qed.
Print Assumptions C88_files.

(** When a project loads: its project file is readable and well formed, its patterns are valid, and everything below its directory can be listed. *)
Theorem C88_loads_exact : forall glob read_toml skip base n, proper n ->
  ((exists pj, load glob read_toml skip base n = POk pj)
   <-> exists c patterns, reaches true n [tx "Mabo.toml"] (File (Some c)) /\ read_toml c = Some patterns /\ (forall pattern, In pattern patterns -> glob pattern <> None)
       /\ forall rel, reaches true n rel Broken -> ~ visible (skip base) rel).
Proof.
  intros glob read_toml skip base n Hp. split.
  - intros [pj H]. unfold load in H. destruct (match resolve n with Dir l => _ | _ => None end) as [[c|]|] eqn:Et; try discriminate. destruct (read_toml c) as [patterns|] eqn:Er; [|discriminate].
    destruct (collect_files glob skip base n patterns) as [fs|e] eqn:Ec; [|discriminate]. destruct (collected glob skip base n patterns fs Ec) as (H1 & H2 & _). exists c, patterns. split; [exact (toml_text n c Et)|]. auto.
  - intros (c & patterns & Ht & Er & Hg & Hb). unfold load. rewrite (text_toml n c Hp Ht), Er. unfold collect_files. pose proof (patterns_ok glob patterns) as Hc. destruct (compile_patterns glob patterns) as [gs|e].
    + pose proof (pick_ok base gs (walk true (skip base) [] n)) as Hk. destruct (pick_files base gs _) as [fs|e]; [eauto|]. destruct Hk as [Hn _]. apply walk_in in Hn as (rel & m & Hr & Hv & E). exfalso.
      apply (Hb rel); [|exact Hv]. destruct m; try discriminate. exact Hr.
    + destruct Hc as (a & p & b & -> & Hn & _). exfalso. exact (Hg p (in_elt _ _ _) Hn).
Qed.
Print Assumptions C88_loads_exact.

(** What is wrong when a project does not load. *)
Theorem C88_errors : forall glob read_toml skip base n e, proper n -> load glob read_toml skip base n = PErr e ->
  match e with
  | ERead f => f = base ++ [tx "Mabo.toml"] /\ forall c, ~ reaches true n [tx "Mabo.toml"] (File (Some c))
  | EParse f => f = base ++ [tx "Mabo.toml"] /\ exists c, reaches true n [tx "Mabo.toml"] (File (Some c)) /\ read_toml c = None
  | EPattern p => glob p = None /\ exists c patterns, reaches true n [tx "Mabo.toml"] (File (Some c)) /\ read_toml c = Some patterns /\ In p patterns
  | EWalk => exists rel, reaches true n rel Broken /\ visible (skip base) rel
  end.
Proof.
  intros glob read_toml skip base n e Hp H. unfold load in H. destruct (match resolve n with Dir l => _ | _ => None end) as [[c|]|] eqn:Et.
  - destruct (read_toml c) as [patterns|] eqn:Er.
    + unfold collect_files in H. pose proof (patterns_ok glob patterns) as Hc. destruct (compile_patterns glob patterns) as [gs|e'].
      * pose proof (pick_ok base gs (walk true (skip base) [] n)) as Hk. destruct (pick_files base gs _) as [fs|e']; [discriminate|]. destruct Hk as [Hn ->]. assert (e = EWalk) as -> by congruence.
        apply walk_in in Hn as (rel & m & Hr & Hv & E). exists rel. split; [destruct m; try discriminate; exact Hr|exact Hv].
      * destruct Hc as (a & p & b & -> & Hn & _ & ->). assert (e = EPattern p) as -> by congruence. split; [exact Hn|]. exists c, (a ++ p :: b). split; [exact (toml_text n c Et)|]. split; [exact Er|apply in_elt].
    + assert (e = EParse (base ++ [tx "Mabo.toml"])) as -> by congruence. split; [reflexivity|]. exists c. split; [exact (toml_text n c Et)|exact Er].
  - assert (e = ERead (base ++ [tx "Mabo.toml"])) as -> by congruence. split; [reflexivity|]. intros c Hc. rewrite (text_toml n c Hp Hc) in Et. discriminate.
  - assert (e = ERead (base ++ [tx "Mabo.toml"])) as -> by congruence. split; [reflexivity|]. intros c Hc. rewrite (text_toml n c Hp Hc) in Et. discriminate.
Qed.
Print Assumptions C88_errors.

(** The directories of a workspace that have a project file. *)
Definition project_dirs (skip : path -> bool) (n : node) (qs : list path) : Prop :=
  NoDup qs /\ forall q, In q qs <-> exists c, reaches false n (q ++ [tx "Mabo.toml"]) (File c) /\ visible skip (q ++ [tx "Mabo.toml"]).
Lemma is_project_some e q : is_project e = Some q <-> exists c, e = Some (q ++ [tx "Mabo.toml"], File c).
Proof.
  unfold is_project. split.
  - destruct e as [[p [c| | |]]|]; try discriminate. destruct (rev p) as [|x r] eqn:E; [discriminate|]. destruct (str_eqb x (tx "Mabo.toml")) eqn:Ex; [|discriminate]. intros H. apply str_eqb_eq in Ex. subst x. assert (q = rev r) as -> by congruence.
    exists c. rewrite <- (rev_involutive p), E. reflexivity.
  - intros [c ->]. rewrite rev_app_distr. cbn [rev app]. rewrite str_eqb_refl, rev_involutive. reflexivity.
Qed.
Lemma found_dirs skip n : proper n -> project_dirs skip n (somes (map is_project (walk false skip [] n))).
Proof.
  intros Hp. split.
  - pose proof (walk_paths false skip n Hp []) as Hd. revert Hd. generalize (walk false skip [] n). intros es Hd. induction es as [|e es IH]; [constructor|]. cbn [map somes].
    assert (Hd' : NoDup (map fst (somes es))) by (destruct e; [inversion Hd; assumption|exact Hd]). destruct (is_project e) as [q|] eqn:Eq; [|exact (IH Hd')]. constructor; [|exact (IH Hd')].
    apply is_project_some in Eq as [c ->]. cbn [somes map fst] in Hd. inversion Hd as [|? ? Hn _]; subst. intros H. apply somes_in in H. apply in_map_iff in H as (e & He & Hin). apply is_project_some in He as [c' ->]. apply Hn. apply in_map_iff. exists (q ++ [tx "Mabo.toml"], File c'). split; [reflexivity|]. apply somes_in. exact Hin.
  - intros q. rewrite somes_in, in_map_iff. split.
    + intros (e & He & Hin). apply is_project_some in He as [c ->]. apply walk_in in Hin as (rel & m & Hr & Hv & E). cbn [app] in *. exists c. destruct m; cbn [entry] in E; try discriminate; try congruence. injection E as -> ->. split; assumption.
    + intros (c & Hr & Hv). exists (Some (q ++ [tx "Mabo.toml"], File c)). split; [apply is_project_some; eauto|]. apply walk_in. exists (q ++ [tx "Mabo.toml"]), (File c). split; [exact Hr|]. split; [exact Hv|reflexivity].
Qed.
Lemma at_path_reaches n q : forall name m, proper n -> reaches false n (q ++ [name]) m -> exists l, at_path n q = Some (Dir l) /\ reaches false n q (Dir l).
Proof.
  revert n. induction q as [|x q IH]; intros n name m Hp H; cbn [app] in H; inversion H as [| | | | |l y k p m' Hin Hr]; subst; try discriminate; inversion Hp as [|l' Hd Hc| |]; subst.
  - exists l. split; [reflexivity|constructor].
  - destruct (IH k name m (Hc _ _ Hin) Hr) as (l' & H1 & H2). exists l'. cbn [at_path]. rewrite (in_child _ _ _ Hd Hin). split; [exact H1|exact (reach_in _ _ _ _ _ _ Hin H2)].
Qed.

(** Discovering the projects of a workspace: every directory with a project file is loaded, and the result is all of these projects, or an error of one of them. *)
Theorem C88_discover : forall glob read_toml skip base n, proper n ->
  exists qs ds, project_dirs (skip base) n qs /\ Forall2 (fun q d => reaches false n q d) qs ds
    /\ match discover glob read_toml skip base n with
       | POk ps => Forall2 (fun x pj => load glob read_toml skip (base ++ fst x) (snd x) = POk pj) (combine qs ds) ps
       | PErr e => exists q d, In (q, d) (combine qs ds) /\ load glob read_toml skip (base ++ q) d = PErr e
       end.
Proof.
  intros glob read_toml skip base n Hp. set (qs := somes (map is_project (walk false (skip base) [] n))). pose proof (found_dirs (skip base) n Hp) as Hq. fold qs in Hq. exists qs, (map (fun q => match at_path n q with Some m => m | None => Broken end) qs).
  split; [exact Hq|]. destruct Hq as [_ Hq]. split.
  - assert (Hall : forall q, In q qs -> reaches false n q (match at_path n q with Some m => m | None => Broken end)).
    { intros q Hin. apply Hq in Hin as (c & Hr & _). destruct (at_path_reaches n q _ _ Hp Hr) as (l & -> & H). exact H. }
    clear -Hall. induction qs as [|q qs IH]; cbn [map]; constructor; [apply Hall; left; reflexivity|]. apply IH. intros q' H. apply Hall. right. exact H.
  - unfold discover. fold qs. clear Hq. induction qs as [|q qs IH]; cbn [map all_ok combine]; [constructor|].
    destruct (load glob read_toml skip (base ++ q) _) as [pj|e] eqn:E; [|exists q; eexists; split; [left; reflexivity|exact E]].
    destruct (all_ok _) as [ps|e].
    + constructor; [exact E|exact IH].
    + destruct IH as (q' & d & Hin & H). exists q', d. split; [right; exact Hin|exact H].
Qed.
Print Assumptions C88_discover.

(** * Where the claim fails *)
Definition any_glob (s : str) : option (path -> bool) := Some (fun p => match p with [_] => str_eqb s (tx "*.mabo") | x :: _ => str_eqb s x | [] => false end).
Definition ex_toml (s : str) : option (list str) := if str_eqb s (tx "bad") then None else Some [s].
Definition see (_ _ : path) : bool := false.

(** A directory called [x.mabo] is one of the files of the project, and cannot be read: a build of the project fails. *)
Theorem C88_directory_refuted : exists base n pj, proper n /\ load any_glob ex_toml see base n = POk pj /\ In (base ++ [tx "x.mabo"]) (pj_files pj) /\ (forall m, reaches true n [tx "x.mabo"] m -> read m = None).
Proof.
  exists [tx "p"], (Dir [(tx "Mabo.toml", File (Some (tx "*.mabo"))); (tx "x.mabo", Dir []); (tx "a.mabo", File (Some []))]). eexists. split.
  { constructor; [cbn [map fst]; repeat constructor; cbn [In]; intuition discriminate|]. intros x m [E|[E|[E|[]]]]; injection E as <- <-; try constructor; [constructor|intros ? ? []]. }
  split; [vm_compute; reflexivity|]. split; [cbn [pj_files]; left; reflexivity|]. intros m H. inversion H as [| | | | |l x k p m' Hin Hr]; subst. destruct Hin as [E|[E|[E|[]]]]; try discriminate. injection E as <-. inversion Hr; subst; reflexivity.
Qed.
Print Assumptions C88_directory_refuted.

(** A directory that cannot be listed and that no pattern selects anything from makes the project unusable. *)
Theorem C88_unrelated_refuted : exists base n, proper n /\ load any_glob ex_toml see base n = PErr EWalk
  /\ exists c, reaches true n [tx "Mabo.toml"] (File (Some c)) /\ ex_toml c = Some [tx "*.mabo"] /\ forall rel, reaches true n (tx "private" :: rel) Broken -> forall g, any_glob (tx "*.mabo") = Some g -> mabo_named (tx "private" :: rel) -> g (tx "private" :: rel) = false.
Proof.
  exists [tx "p"], (Dir [(tx "Mabo.toml", File (Some (tx "*.mabo"))); (tx "private", Broken); (tx "a.mabo", File (Some []))]). split.
  { constructor; [cbn [map fst]; repeat constructor; cbn [In]; intuition discriminate|]. intros x m [E|[E|[E|[]]]]; injection E as <- <-; constructor. }
  split; [vm_compute; reflexivity|]. exists (tx "*.mabo"). split; [apply (reach_in _ _ _ (File (Some (tx "*.mabo")))); [left; reflexivity|constructor]|]. split; [reflexivity|].
  intros rel Hr g Hg (dir & stem & _ & E). inversion Hr as [| | | | |l x k p m' Hin Hr']; subst. destruct Hin as [F|[F|[F|[]]]]; try discriminate. injection F as <-. inversion Hr'; subst. exfalso. destruct dir as [|y dir]; [|destruct dir; discriminate]. cbn [app] in E. injection E as E.
  apply (f_equal (fun s => List.last s 0)) in E. change (tx ".mabo") with ([46; 109; 97; 98] ++ [111]) in E. rewrite app_assoc, last_last in E. discriminate.
Qed.
Print Assumptions C88_unrelated_refuted.

(** One project file with a mistake hides every other project of the workspace (the language server then knows none of their files). *)
Theorem C88_broken_hides_refuted : exists base n pj, proper n /\ load any_glob ex_toml see (base ++ [tx "good"]) (Dir [(tx "Mabo.toml", File (Some (tx "*.mabo")))]) = POk pj
  /\ reaches false n [tx "good"] (Dir [(tx "Mabo.toml", File (Some (tx "*.mabo")))]) /\ discover any_glob ex_toml see base n = PErr (EParse (base ++ [tx "old"; tx "Mabo.toml"])).
Proof.
  exists [tx "w"], (Dir [(tx "good", Dir [(tx "Mabo.toml", File (Some (tx "*.mabo")))]); (tx "old", Dir [(tx "Mabo.toml", File (Some (tx "bad")))])]). eexists. split.
  { constructor; [cbn [map fst]; repeat constructor; cbn [In]; intuition discriminate|]. intros x m [E|[E|[]]]; injection E as <- <-; (constructor; [repeat constructor; intros []|]; intros y k [F|[]]; injection F as <- <-; constructor). }
  split; [vm_compute; reflexivity|]. split; [apply (reach_in _ _ _ (Dir [(tx "Mabo.toml", File (Some (tx "*.mabo")))])); [left; reflexivity|constructor]|]. vm_compute. reflexivity.
Qed.
Print Assumptions C88_broken_hides_refuted.

(** A project: a linked directory is followed, a hidden one is not, other files are left. *)
Example C88_example :
  let n := Dir [(tx "Mabo.toml", File (Some (tx "sub"))); (tx "a.mabo", File (Some [])); (tx "sub", Link (Dir [(tx "b.mabo", File (Some [])); (tx "c.txt", File None); (tx ".mabo", File None); (tx "d", Dir [(tx "e.x.mabo", File (Some []))])]));
                (tx ".git", Dir [(tx "z.mabo", File None)])] in
  load any_glob ex_toml (fun _ p => existsb (fun x => match x with 46 :: 103 :: _ => true | _ => false end) p) [tx "p"] n
  = POk (Project [tx "p"; tx "Mabo.toml"] [[tx "p"; tx "sub"; tx "b.mabo"]; [tx "p"; tx "sub"; tx "d"; tx "e.x.mabo"]]).
Proof. vm_compute. reflexivity. Qed.
