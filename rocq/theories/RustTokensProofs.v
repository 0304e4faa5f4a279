(** Which of the emitted token streams syn's parser accepts. *)
From Verif Require Import Base Syntax Parser Compiler Const Tools RustTokens.
From Verif Require LowerProofs PropGoOut.
Require Coq.Strings.String.
Import Coq.Strings.String.StringSyntax.
Local Open Scope N_scope.

(** The parser [p] on the tokens [e] followed by [rest]: it fails, or [ok] and it reads exactly [e]; if [ok] and its bounds suffice ([full])
    it reads [e]. *)
Definition reads (p : list tt -> option (list tt)) (e : list tt) (ok : bool) (full : Prop) (rest : list tt) : Prop :=
  (p (e ++ rest) = None \/ (ok = true /\ p (e ++ rest) = Some rest)) /\ (ok = true -> full -> p (e ++ rest) = Some rest).
(** What can follow a type. *)
Definition stops (rest : list tt) : Prop := match rest with TP (PnPathSep | PnLt) :: _ => False | _ => True end.
(** How elements of lists begin. *)
Definition begins (e : list tt) : Prop := match e with [] | TP PnGt :: _ => False | _ => True end.

Lemma reads_fail p e ok full rest : p (e ++ rest) = None -> ok = false -> reads p e ok full rest.
Proof. intros H ->. split; [left; exact H|discriminate]. Qed.
Lemma reads_done p e rest (full : Prop) : p (e ++ rest) = Some rest -> reads p e true full rest.
Proof. intros H. split; [right; split; [reflexivity|exact H]|intros _ _; exact H]. Qed.

Section Lists.
Context {A : Type} (p : list tt -> option (list tt)) (e : A -> list tt) (ok : A -> bool) (full : A -> Prop).
Lemma until_gt_reads l : (forall a rest, In a l -> stops rest -> reads p (e a) (ok a) (full a) rest) -> (forall a, In a l -> begins (e a)) ->
  forall n rest, reads (until_gt n p) (commas e l ++ [TP PnGt]) (forallb ok l) ((length l < n)%nat /\ forall a, In a l -> full a) rest.
Proof.
  intros H Hb. induction l as [|a l IH]; intros n rest.
  - destruct n as [|n]; [split; [left; reflexivity|intros _ [Hn _]; inversion Hn]|]. apply reads_done. reflexivity.
  - destruct n as [|n]; [split; [left; reflexivity|intros _ [Hn _]; inversion Hn]|].
    assert (E : (commas e (a :: l) ++ [TP PnGt]) ++ rest = e a ++ TP PnComma :: (commas e l ++ [TP PnGt]) ++ rest).
    { unfold commas. cbn [flat_map]. rewrite <- !app_assoc. reflexivity. }
    destruct (H a (TP PnComma :: (commas e l ++ [TP PnGt]) ++ rest) (or_introl eq_refl) I) as [H1 H2].
    assert (Eu : until_gt (S n) p (e a ++ TP PnComma :: (commas e l ++ [TP PnGt]) ++ rest)
      = match p (e a ++ TP PnComma :: (commas e l ++ [TP PnGt]) ++ rest) with Some (TP PnGt :: r) => Some r | Some (TP PnComma :: r) => until_gt n p r | _ => None end).
    { specialize (Hb a (or_introl eq_refl)). cbn [until_gt]. destruct (e a) as [|[|[]| |] ea]; try destruct Hb; reflexivity. }
    specialize (IH (fun x r Hx => H x r (or_intror Hx)) (fun x Hx => Hb x (or_intror Hx)) n rest) as [I1 I2].
    unfold reads. rewrite E, Eu. cbn [forallb length]. split.
    + destruct H1 as [->|[-> ->]]; [left; reflexivity|]. exact I1.
    + intros Hok [Hn Hf]. apply andb_true_iff in Hok as [Ha Hl]. rewrite (H2 Ha (Hf a (or_introl eq_refl))).
      apply I2; [exact Hl|]. split; [lia|intros x Hx; apply Hf; right; exact Hx].
Qed.
Lemma terminated_reads l : (forall a rest, In a l -> reads p (e a) (ok a) (full a) (TP PnComma :: rest)) ->
  forall n, (terminated n p (commas e l) = true -> forallb ok l = true) /\
    (forallb ok l = true -> (length l < n)%nat -> (forall a, In a l -> full a) -> terminated n p (commas e l) = true).
Proof.
  intros H. induction l as [|a l IH]; intros n.
  - split; [reflexivity|]. intros _ Hn _. destruct n; [inversion Hn|reflexivity].
  - destruct n as [|n]; [split; [discriminate|intros _ Hn; inversion Hn]|].
    assert (E : commas e (a :: l) = e a ++ TP PnComma :: commas e l) by (unfold commas; cbn [flat_map]; rewrite <- app_assoc; reflexivity).
    destruct (H a (commas e l) (or_introl eq_refl)) as [H1 H2].
    assert (Et : terminated (S n) p (e a ++ TP PnComma :: commas e l)
      = match p (e a ++ TP PnComma :: commas e l) with Some [] => true | Some (TP PnComma :: r) => terminated n p r | _ => false end).
    { cbn [terminated]. destruct (e a); reflexivity. }
    specialize (IH (fun x r Hx => H x r (or_intror Hx)) n) as [I1 I2]. rewrite E, Et. cbn [forallb length]. split.
    + destruct H1 as [->|[-> ->]]; [discriminate|]. exact I1.
    + intros Hok Hn Hf. apply andb_true_iff in Hok as [Ha Hl]. rewrite (H2 Ha (Hf a (or_introl eq_refl))).
      apply I2; [exact Hl|lia|intros x Hx; apply Hf; right; exact Hx].
Qed.
Lemma repeated_reads l : (forall a rest, In a l -> reads p (e a) (ok a) (full a) rest) -> (forall a, In a l -> e a <> []) ->
  forall n, (p_repeated n p (flat_map e l) = true -> forallb ok l = true) /\
    (forallb ok l = true -> (length l < n)%nat -> (forall a, In a l -> full a) -> p_repeated n p (flat_map e l) = true).
Proof.
  intros H Hb. induction l as [|a l IH]; intros n.
  - split; [reflexivity|]. intros _ Hn _. destruct n; [inversion Hn|reflexivity].
  - destruct n as [|n]; [split; [discriminate|intros _ Hn; inversion Hn]|].
    destruct (H a (flat_map e l) (or_introl eq_refl)) as [H1 H2].
    assert (Et : p_repeated (S n) p (flat_map e (a :: l)) = match p (e a ++ flat_map e l) with Some r => p_repeated n p r | None => false end).
    { specialize (Hb a (or_introl eq_refl)). cbn [p_repeated flat_map]. destruct (e a); [contradiction|reflexivity]. }
    specialize (IH (fun x r Hx => H x r (or_intror Hx)) (fun x Hx => Hb x (or_intror Hx)) n) as [I1 I2]. rewrite Et. cbn [forallb length]. split.
    + destruct H1 as [->|[-> ->]]; [discriminate|]. exact I1.
    + intros Hok Hn Hf. apply andb_true_iff in Hok as [Ha Hl]. rewrite (H2 Ha (Hf a (or_introl eq_refl))).
      apply I2; [exact Hl|lia|intros x Hx; apply Hf; right; exact Hx].
Qed.
End Lists.

Lemma commas_length {A} (e : A -> list tt) l : (length l <= length (commas e l))%nat.
Proof. unfold commas. induction l as [|a l IH]; cbn [flat_map length]; [lia|]. rewrite !app_length. cbn [length]. lia. Qed.

(** * Types *)
Fixpoint path_ok (first : bool) (path : list str) (name : str) (args : bool) : bool :=
  match path with
  | [] => segment_name first name && (negb args || takes_args name)
  | s :: path' => segment_name first s && path_ok false path' name args
  end.
Fixpoint ok_ty (t : sty) : bool :=
  match t with
  | SPrim _ => true
  | SVec t | SHashSet t | SOption t | SNonZero t | SArray t _ => ok_ty t
  | SHashMap k v => ok_ty k && ok_ty v
  | STuple ts => forallb ok_ty ts
  | SExternal path name gs => path_ok true path name (negb (match gs with [] => true | _ => false end)) && forallb ok_ty gs
  end.
Definition maxs (l : list nat) : nat := fold_right Nat.max 0%nat l.
Fixpoint depth (t : sty) : nat :=
  match t with
  | SPrim _ => 3
  | SVec t | SHashSet t | SOption t | SArray t _ => S (depth t)
  | SNonZero t => depth t
  | SHashMap k v => S (Nat.max (depth k) (depth v))
  | STuple ts | SExternal _ _ ts => S (maxs (map depth ts))
  end.
Lemma maxs_in l x : In x l -> (x <= maxs l)%nat.
Proof. unfold maxs. induction l as [|y l IH]; intros H; [destruct H|]. cbn [fold_right]. destruct H as [->|H]; [|specialize (IH H)]; lia. Qed.

Section Types.
Variable bc : bool.
Lemma begins_ty t : def_type_ok t = true -> begins (emit_ty bc t).
Proof.
  destruct t as [p|t|k v|t|t|t|ts|t n|path name gs]; cbn; try (intros; exact I).
  - intros _. destruct p; cbn; try exact I; destruct bc; exact I.
  - intros H. apply andb_true_iff in H as [H _]. destruct t as [p| | | | | | | |]; try discriminate; try exact I. destruct p; try discriminate; cbn; try exact I; destruct bc; exact I.
  - intros _. destruct path; exact I.
Qed.
Lemma stops_more ty n rest : stops rest -> (match rest with TP PnPathSep :: r' => p_path n ty false r' | _ => Some rest end) = Some rest.
Proof. destruct rest as [|[|[]| |] rest]; cbn; try reflexivity; contradiction. Qed.
Lemma path_reads ty args (okargs : bool) (fullargs : Prop) (has : bool) rest :
  (if has then forall n, reads (until_gt n ty) (args ++ [TP PnGt]) okargs ((length args < n)%nat /\ fullargs) rest else okargs = true) -> stops rest ->
  forall path name first n, reads (p_path n ty first) (flat_map (fun s => [TId s; TP PnPathSep]) path ++ TId name :: (if has then angle args else []))
    (path_ok first path name has && okargs) ((length path < n)%nat /\ fullargs) rest.
Proof.
  intros Ha Hs. induction path as [|s path IH]; intros name first n.
  - destruct n as [|n]; [split; [left; reflexivity|intros _ [Hn _]; inversion Hn]|]. cbn [flat_map app path_ok]. unfold reads. cbn [app p_path].
    destruct (segment_name first name) eqn:En; [|split; [left; reflexivity|discriminate]].
    destruct has.
    + unfold angle. cbn [negb orb]. rewrite <- app_comm_cons. cbn [app]. destruct (takes_args name) eqn:Et; cbn [andb]; [|split; [left; reflexivity|discriminate]].
      specialize (Ha (S (length ((args ++ [TP PnGt]) ++ rest)))) as [H1 H2]. cbn [andthen]. split.
      * destruct H1 as [->|[-> ->]]; [left; reflexivity|]. cbn [andthen]. right. split; [reflexivity|]. apply stops_more. exact Hs.
      * intros Hok [_ Hf]. rewrite H2; [|exact Hok|split; [|exact Hf]; rewrite !app_length; cbn [length]; lia]. cbn [andthen]. apply stops_more. exact Hs.
    + cbn [negb orb andb app]. assert (E : (match rest with TP PnLt :: r' => if takes_args name then andthen (until_gt (S (length r')) ty r') (fun r => match r with TP PnPathSep :: r'0 => p_path n ty false r'0 | _ => Some r end) else None | _ => match rest with TP PnPathSep :: r'0 => p_path n ty false r'0 | _ => Some rest end end) = Some rest).
      { destruct rest as [|[|[]| |] rest]; cbn in Hs |- *; try reflexivity; contradiction. }
      rewrite E. split; [right; split; [exact Ha|reflexivity]|intros; reflexivity].
  - destruct n as [|n]; [split; [left; reflexivity|intros _ [Hn _]; inversion Hn]|]. cbn [flat_map app path_ok].
    specialize (IH name false n) as [I1 I2]. unfold reads. cbn [app p_path].
    destruct (segment_name first s); cbn [andb]; [|split; [left; reflexivity|discriminate]]. split; [exact I1|].
    intros Hok [Hn Hf]. apply I2; [exact Hok|]. cbn [length] in Hn. split; [lia|exact Hf].
Qed.

Lemma until_gt_one p e ok (full : Prop) n rest : (forall r, stops r -> reads p e ok full r) -> begins e ->
  reads (until_gt n p) (e ++ [TP PnGt]) ok ((0 < n)%nat /\ full) rest.
Proof.
  intros H Hb. destruct n as [|n]; [split; [left; reflexivity|intros _ [Hn _]; inversion Hn]|].
  destruct (H (TP PnGt :: rest) I) as [H1 H2]. unfold reads. rewrite <- app_assoc. cbn [app].
  assert (E : until_gt (S n) p (e ++ TP PnGt :: rest) = match p (e ++ TP PnGt :: rest) with Some (TP PnGt :: r) => Some r | Some (TP PnComma :: r) => until_gt n p r | _ => None end).
  { cbn [until_gt]. destruct e as [|[|[]| |] e]; try destruct Hb; reflexivity. }
  rewrite E. split.
  - destruct H1 as [->|[-> ->]]; [left; reflexivity|right; auto].
  - intros Hok [_ Hf]. rewrite (H2 Hok Hf). reflexivity.
Qed.
Lemma until_gt_two p e1 e2 ok1 ok2 (full1 full2 : Prop) n rest : (forall r, stops r -> reads p e1 ok1 full1 r) -> (forall r, stops r -> reads p e2 ok2 full2 r) ->
  begins e1 -> begins e2 -> reads (until_gt n p) ((e1 ++ TP PnComma :: e2) ++ [TP PnGt]) (ok1 && ok2) ((1 < n)%nat /\ (full1 /\ full2)) rest.
Proof.
  intros Ha Hb B1 B2. destruct n as [|n]; [split; [left; reflexivity|intros _ [Hn _]; inversion Hn]|].
  destruct (Ha (TP PnComma :: (e2 ++ [TP PnGt]) ++ rest) I) as [H1 H2]. destruct (until_gt_one p e2 ok2 full2 n rest Hb B2) as [H3 H4].
  assert (Ee : ((e1 ++ TP PnComma :: e2) ++ [TP PnGt]) ++ rest = e1 ++ TP PnComma :: (e2 ++ [TP PnGt]) ++ rest) by (rewrite <- !app_assoc; reflexivity).
  unfold reads. rewrite Ee.
  assert (E : until_gt (S n) p (e1 ++ TP PnComma :: (e2 ++ [TP PnGt]) ++ rest) = match p (e1 ++ TP PnComma :: (e2 ++ [TP PnGt]) ++ rest) with Some (TP PnGt :: r) => Some r | Some (TP PnComma :: r) => until_gt n p r | _ => None end).
  { cbn [until_gt]. destruct e1 as [|[|[]| |] e]; try destruct B1; reflexivity. }
  rewrite E. split.
  - destruct H1 as [->|[-> ->]]; [left; reflexivity|exact H3].
  - intros Hok [Hn [Hf Hg]]. apply andb_true_iff in Hok as [O1 O2]. rewrite (H2 O1 Hf). apply H4; [exact O2|split; [lia|exact Hg]].
Qed.
Lemma reads_weaken p e ok (full full' : Prop) rest : (full' -> full) -> reads p e ok full rest -> reads p e ok full' rest.
Proof. intros H [H1 H2]. split; [exact H1|]. intros Ho Hf. apply H2; auto. Qed.

(** Paths without and with a leading [::]. *)
Lemma ty_path f path name (has : bool) args okargs (fullargs : Prop) rest :
  (if has then forall n, reads (until_gt n (p_ty f)) (args ++ [TP PnGt]) okargs ((length args < n)%nat /\ fullargs) rest else okargs = true) -> stops rest ->
  reads (p_ty (S f)) (flat_map (fun s => [TId s; TP PnPathSep]) path ++ TId name :: (if has then angle args else [])) (path_ok true path name has && okargs) fullargs rest
  /\ reads (p_ty (S f)) (TP PnPathSep :: flat_map (fun s => [TId s; TP PnPathSep]) path ++ TId name :: (if has then angle args else [])) (path_ok false path name has && okargs) fullargs rest.
Proof.
  intros Ha Hs. set (e := flat_map (fun s => [TId s; TP PnPathSep]) path ++ TId name :: (if has then angle args else [])).
  assert (Hlen : (length path < S (length (e ++ rest)))%nat).
  { unfold e. rewrite !app_length. assert (length path <= length (flat_map (fun s => [TId s; TP PnPathSep]) path))%nat; [|lia]. clear. induction path; cbn [flat_map length app]; lia. }
  split.
  - destruct (path_reads (p_ty f) args okargs fullargs has rest Ha Hs path name true (S (length (e ++ rest)))) as [H1 H2].
    assert (E : p_ty (S f) (e ++ rest) = p_path (S (length (e ++ rest))) (p_ty f) true (e ++ rest)) by (unfold e; destruct path; reflexivity).
    unfold reads. rewrite E. split; [exact H1|]. intros Ho Hf. apply H2; auto.
  - destruct (path_reads (p_ty f) args okargs fullargs has rest Ha Hs path name false (S (length (e ++ rest)))) as [H1 H2].
    unfold reads. change (p_ty (S f) ((TP PnPathSep :: e) ++ rest)) with (p_path (S (length (e ++ rest))) (p_ty f) false (e ++ rest)).
    split; [exact H1|]. intros Ho Hf. apply H2; auto.
Qed.
Lemma zero_fuel e ok (full : Prop) rest : ~ full -> reads (p_ty 0) e ok full rest.
Proof. intros H. split; [left; reflexivity|]. intros _ Hf. contradiction. Qed.
Lemma word_reads n f rest : segment_name true n = true -> stops rest -> reads (p_ty f) [TId n] true (1 <= f)%nat rest.
Proof.
  intros Hn Hs. destruct f as [|f]; [apply zero_fuel; lia|]. destruct (ty_path f [] n false [] true True rest eq_refl Hs) as [H _].
  cbn [flat_map app path_ok negb orb] in H. rewrite Hn in H. cbn [andb] in H. revert H. apply reads_weaken. trivial.
Qed.
Lemma prim_reads p f rest : stops rest -> reads (p_ty f) (emit_prim bc p) true (3 <= f)%nat rest.
Proof.
  intros Hs. assert (Hw : forall n, segment_name true n = true -> reads (p_ty f) [TId n] true (3 <= f)%nat rest).
  { intros n Hn. eapply reads_weaken; [|apply word_reads; assumption]. lia. }
  assert (Hargs : forall (args : list tt) f, (forall f r, stops r -> reads (p_ty f) args true (2 <= f)%nat r) -> begins args ->
     forall n, reads (until_gt n (p_ty f)) (args ++ [TP PnGt]) true ((length args < n)%nat /\ (2 <= f)%nat) rest).
  { intros args f0 Ha Hb n. eapply reads_weaken; [|apply (until_gt_one (p_ty f0) args true (2 <= f0)%nat n rest (Ha f0) Hb)]. lia. }
  destruct f as [|f]; [apply zero_fuel; lia|].
  destruct p; try (apply Hw; reflexivity).
  1,2: cbn [emit_prim]; destruct bc; [
    destruct (ty_path f [tx "mabo"; tx "buf"] (tx "Bytes") false [] true True rest eq_refl Hs) as [_ H]; revert H; apply reads_weaken; trivial
   |destruct (ty_path f [] (tx "Vec") true [tid "u8"] true (2 <= f)%nat rest (Hargs [tid "u8"] f (fun f r Hr => reads_weaken _ _ _ _ _ _ (fun H => Nat.le_trans _ _ _ (Nat.le_succ_diag_r 1) H) (word_reads (tx "u8") f r eq_refl Hr)) I) Hs) as [H _]; revert H; apply reads_weaken; lia].
  - destruct (ty_path f [] (tx "Box") true [tid "str"] true (2 <= f)%nat rest (Hargs [tid "str"] f (fun f r Hr => reads_weaken _ _ _ _ _ _ (fun H => Nat.le_trans _ _ _ (Nat.le_succ_diag_r 1) H) (word_reads (tx "str") f r eq_refl Hr)) I) Hs) as [H _]; revert H; apply reads_weaken; lia.
  - assert (Hsl : forall f r, stops r -> reads (p_ty f) [TG Bracket [tid "u8"]] true (2 <= f)%nat r).
    { intros f0 r Hr. destruct f0 as [|f0]; [apply zero_fuel; lia|]. destruct f0 as [|f0]; [split; [left; reflexivity|lia]|]. apply reads_done. reflexivity. }
    destruct (ty_path f [] (tx "Box") true [TG Bracket [tid "u8"]] true (2 <= f)%nat rest (Hargs _ f Hsl I) Hs) as [H _]; revert H; apply reads_weaken; lia.
Qed.
Lemma nz_prim_reads p f rest : nz_supported (SPrim p) = true -> stops rest -> reads (p_ty f) (emit_nz_prim bc p) true (3 <= f)%nat rest.
Proof.
  intros Hp Hs. destruct f as [|f]; [apply zero_fuel; lia|].
  assert (Hw : forall path n, path_ok false path n false = true -> reads (p_ty (S f)) (TP PnPathSep :: flat_map (fun s => [TId s; TP PnPathSep]) path ++ [TId n]) true (3 <= S f)%nat rest).
  { intros path n Hn. destruct (ty_path f path n false [] true True rest eq_refl Hs) as [_ H]. rewrite Hn in H. revert H. apply reads_weaken. trivial. }
  destruct p; try discriminate Hp; cbn [emit_nz_prim]; unfold std, mabo;
    match goal with |- reads _ [_; _; _; _; _; tid ?n] _ _ _ => exact (Hw [tx "std"; tx "num"] (tx n) eq_refl) | |- reads _ [_; _; _; tid ?n] _ _ _ => exact (Hw [tx "mabo"] (tx n) eq_refl) | _ => idtac end.
  1,2: destruct bc; [|exact (Hw [tx "mabo"] (tx "NonZeroBytes") eq_refl)];
    assert (Hb : forall f r, stops r -> reads (p_ty f) bytes_ty true (1 <= f)%nat r) by (intros f0 r Hr; destruct f0 as [|f0]; [apply zero_fuel; lia|]; destruct (ty_path f0 [tx "mabo"; tx "buf"] (tx "Bytes") false [] true True r eq_refl Hr) as [_ H]; revert H; apply reads_weaken; trivial);
    assert (Ha : forall n, reads (until_gt n (p_ty f)) (bytes_ty ++ [TP PnGt]) true ((length bytes_ty < n)%nat /\ (1 <= f)%nat) rest) by (intros n; eapply reads_weaken; [|apply (until_gt_one (p_ty f) bytes_ty true (1 <= f)%nat n rest (Hb f) I)]; cbn; lia);
    destruct (ty_path f [tx "mabo"] (tx "NonZero") true bytes_ty true (1 <= f)%nat rest Ha Hs) as [_ H]; revert H; apply reads_weaken; lia.
Qed.

Definition reads_ty (t : sty) : Prop := def_type_ok t = true -> forall f rest, stops rest -> reads (p_ty f) (emit_ty bc t) (ok_ty t) (depth t <= f)%nat rest.
Lemma ty_reads2 t : reads_ty t /\ match t with SVec t | SHashSet t => reads_ty t | SHashMap k v => reads_ty k /\ reads_ty v | _ => True end.
Proof.
  assert (One : forall t path name lead f rest, def_type_ok t = true -> (forall f rest, stops rest -> reads (p_ty f) (emit_ty bc t) (ok_ty t) (depth t <= f)%nat rest) -> stops rest ->
     path_ok (negb lead) path name true = true ->
     reads (p_ty f) ((if lead then [TP PnPathSep] else []) ++ flat_map (fun s => [TId s; TP PnPathSep]) path ++ TId name :: angle (emit_ty bc t)) (ok_ty t) (S (depth t) <= f)%nat rest).
  { intros t0 path name lead f rest Hd IH Hs Hp. destruct f as [|f]; [apply zero_fuel; lia|].
    assert (Ha : forall n, reads (until_gt n (p_ty f)) (emit_ty bc t0 ++ [TP PnGt]) (ok_ty t0) ((length (emit_ty bc t0) < n)%nat /\ (depth t0 <= f)%nat) rest).
    { intros n. eapply reads_weaken; [|apply (until_gt_one (p_ty f) _ (ok_ty t0) (depth t0 <= f)%nat n rest (IH f) (begins_ty t0 Hd))]. lia. }
    destruct (ty_path f path name true _ _ _ rest Ha Hs) as [H1 H2]. destruct lead; cbn [negb] in Hp; rewrite Hp in *; [revert H2|revert H1]; apply reads_weaken; lia. }
  assert (Two : forall t1 t2 path name f rest, def_type_ok t1 = true -> def_type_ok t2 = true ->
     (forall f rest, stops rest -> reads (p_ty f) (emit_ty bc t1) (ok_ty t1) (depth t1 <= f)%nat rest) ->
     (forall f rest, stops rest -> reads (p_ty f) (emit_ty bc t2) (ok_ty t2) (depth t2 <= f)%nat rest) -> stops rest ->
     path_ok false path name true = true ->
     reads (p_ty f) (TP PnPathSep :: flat_map (fun s => [TId s; TP PnPathSep]) path ++ TId name :: angle (emit_ty bc t1 ++ TP PnComma :: emit_ty bc t2)) (ok_ty t1 && ok_ty t2) (S (Nat.max (depth t1) (depth t2)) <= f)%nat rest).
  { intros t1 t2 path name f rest D1 D2 I1 I2 Hs Hp. destruct f as [|f]; [apply zero_fuel; lia|].
    assert (Ha : forall n, reads (until_gt n (p_ty f)) ((emit_ty bc t1 ++ TP PnComma :: emit_ty bc t2) ++ [TP PnGt]) (ok_ty t1 && ok_ty t2) ((length (emit_ty bc t1 ++ TP PnComma :: emit_ty bc t2) < n)%nat /\ (depth t1 <= f /\ depth t2 <= f)%nat) rest).
    { intros n. eapply reads_weaken; [|apply (until_gt_two (p_ty f) _ _ _ _ (depth t1 <= f)%nat (depth t2 <= f)%nat n rest (I1 f) (I2 f) (begins_ty t1 D1) (begins_ty t2 D2))].
      rewrite app_length. cbn [length]. pose proof (begins_ty t1 D1). destruct (emit_ty bc t1); [contradiction|]. cbn [length]. lia. }
    destruct (ty_path f path name true _ _ _ rest Ha Hs) as [_ H2]. rewrite Hp in *. revert H2. apply reads_weaken. lia. }
  induction t as [p|t IH|k v IHk IHv|t IH|t IH|t IH|ts IH|t n IH|path name gs IH] using LowerProofs.sty_ind2;
    (split; [intros Hd f rest Hs; cbn [def_type_ok] in Hd|try exact I; try (apply IH); try (split; [apply IHk|apply IHv])]).
  - apply prim_reads; exact Hs.
  - exact (One t [] (tx "Vec") false f rest Hd (proj1 IH Hd) Hs eq_refl).
  - apply andb_true_iff in Hd as [D1 D2]. exact (Two k v [tx "std"; tx "collections"] (tx "HashMap") f rest D1 D2 (proj1 IHk D1) (proj1 IHv D2) Hs eq_refl).
  - exact (One t [tx "std"; tx "collections"] (tx "HashSet") true f rest Hd (proj1 IH Hd) Hs eq_refl).
  - exact (One t [] (tx "Option") false f rest Hd (proj1 IH Hd) Hs eq_refl).
  - apply andb_true_iff in Hd as [Hn Hd]. destruct IH as [_ IH].
    destruct t as [p|t|k v|t|t|t|ts|t n|path name gs]; try discriminate Hn; cbn [ok_ty depth]; cbn [def_type_ok] in Hd.
    + apply nz_prim_reads; assumption.
    + exact (One t [tx "mabo"] (tx "NonZeroVec") true f rest Hd (IH Hd) Hs eq_refl).
    + destruct IH as [IHk IHv]. apply andb_true_iff in Hd as [D1 D2]. exact (Two k v [tx "mabo"] (tx "NonZeroHashMap") f rest D1 D2 (IHk D1) (IHv D2) Hs eq_refl).
    + exact (One t [tx "mabo"] (tx "NonZeroHashSet") true f rest Hd (IH Hd) Hs eq_refl).
  - destruct f as [|f]; [apply zero_fuel; cbn [depth]; lia|]. rewrite forallb_forall in Hd.
    assert (Hl : forall a r, In a ts -> reads (p_ty f) (emit_ty bc a) (ok_ty a) (depth a <= f)%nat (TP PnComma :: r)).
    { intros a r Ha. apply (proj1 (IH a Ha) (Hd a Ha)). exact I. }
    destruct (terminated_reads (p_ty f) (emit_ty bc) ok_ty (fun a => depth a <= f)%nat ts Hl (S (length (commas (emit_ty bc) ts)))) as [H1 H2].
    unfold reads. cbn [emit_ty app p_ty ok_ty]. split.
    + destruct (terminated _ _ _); [right; split; [apply H1; reflexivity|reflexivity]|left; reflexivity].
    + intros Hok Hf. rewrite H2; [reflexivity|exact Hok| |].
      * assert (length ts <= length (commas (emit_ty bc) ts))%nat; [|lia]. apply commas_length.
      * intros a Ha. cbn [depth] in Hf. pose proof (maxs_in (map depth ts) (depth a) (in_map depth ts a Ha)). lia.
  - destruct f as [|f]; [apply zero_fuel; cbn [depth]; lia|].
    destruct (proj1 IH Hd f [TP PnSemi; TLit] I) as [H1 H2]. unfold reads. cbn [emit_ty app p_ty ok_ty]. split.
    + destruct H1 as [->|[-> ->]]; [left; reflexivity|right; split; reflexivity].
    + intros Hok Hf. cbn [depth] in Hf. rewrite H2; [reflexivity|exact Hok|lia].
  - destruct f as [|f]; [apply zero_fuel; cbn [depth]; lia|]. rewrite forallb_forall in Hd.
    assert (Hl : forall a r, In a gs -> stops r -> reads (p_ty f) (emit_ty bc a) (ok_ty a) (depth a <= f)%nat r).
    { intros a r Ha Hr. apply (proj1 (IH a Ha) (Hd a Ha)). exact Hr. }
    assert (Hb : forall a, In a gs -> begins (emit_ty bc a)) by (intros a Ha; apply begins_ty, Hd, Ha).
    assert (Hargs : forall n, reads (until_gt n (p_ty f)) (commas (emit_ty bc) gs ++ [TP PnGt]) (forallb ok_ty gs) ((length (commas (emit_ty bc) gs) < n)%nat /\ (maxs (map depth gs) <= f)%nat) rest).
    { intros n. eapply reads_weaken; [|apply (until_gt_reads (p_ty f) (emit_ty bc) ok_ty (fun a => depth a <= f)%nat gs Hl Hb)]. intros [Hn Hm]. split.
      - assert (length gs <= length (commas (emit_ty bc) gs))%nat; [|lia]. apply commas_length.
      - intros a Ha. pose proof (maxs_in (map depth gs) (depth a) (in_map depth gs a Ha)). lia. }
    destruct gs as [|g gs].
    + destruct (ty_path f path name false [] true (maxs [] <= f)%nat rest eq_refl Hs) as [H _]. cbn [emit_ty ok_ty negb]. revert H. apply reads_weaken. cbn [depth map]. lia.
    + destruct (ty_path f path name true _ _ _ rest Hargs Hs) as [H _]. cbn [emit_ty ok_ty negb]. revert H. apply reads_weaken. cbn [depth]. lia.
Qed.
Lemma ty_reads t : reads_ty t.
Proof. apply ty_reads2. Qed.

(** * Fields *)
Definition ok_unnamed (for_struct : bool) (t : sty) : bool :=
  ok_ty t || (negb for_struct && match t with SExternal (s :: path) n gs => str_eqb s (tx "pub") && (path_ok false path n (negb (match gs with [] => true | _ => false end)) && forallb ok_ty gs) | _ => false end).
Definition ok_fields (for_struct : bool) (fs : sfields) : bool :=
  match ss_kind fs with
  | SKNamed => forallb (fun f => is_ident (sf_name f) && ok_ty (sf_ty f)) (ss_fields fs)
  | SKUnnamed => forallb (fun f => ok_unnamed for_struct (sf_ty f)) (ss_fields fs)
  | SKUnit => true
  end.
Lemma attrs_comment c rest : p_attrs (emit_comment c ++ rest) = p_attrs rest.
Proof. unfold emit_comment. induction c as [|x c IH]; [reflexivity|]. cbn [flat_map app p_attrs tid]. exact IH. Qed.
Definition plain_head (e : list tt) : Prop := match e with TId _ :: _ | TP PnPathSep :: _ | TG _ _ :: _ => True | _ => False end.
Lemma plain_ty t : def_type_ok t = true -> plain_head (emit_ty bc t).
Proof.
  destruct t as [p|t|k v|t|t|t|ts|t n|path name gs]; cbn; try (intros; exact I).
  - intros _. destruct p; cbn; try exact I; destruct bc; exact I.
  - intros H. apply andb_true_iff in H as [H _]. destruct t as [p| | | | | | | |]; try discriminate; try exact I. destruct p; try discriminate; cbn; try exact I; destruct bc; exact I.
  - intros _. destruct path; exact I.
Qed.
Lemma plain_attrs e rest : plain_head e -> p_attrs (e ++ rest) = e ++ rest.
Proof. destruct e as [|[|[]| |] e]; try contradiction; reflexivity. Qed.
Lemma named_reads (for_struct : bool) g f rest : def_type_ok (sf_ty f) = true -> stops rest ->
  reads (p_named (p_ty g)) (emit_comment (sf_comment f) ++ (if for_struct then [tid "pub"] else []) ++ TId (sf_name f) :: TP PnColon :: emit_ty bc (sf_ty f))
    (is_ident (sf_name f) && ok_ty (sf_ty f)) (depth (sf_ty f) <= g)%nat rest.
Proof.
  intros Hd Hs. destruct (ty_reads (sf_ty f) Hd g rest Hs) as [H1 H2].
  assert (E : p_named (p_ty g) ((emit_comment (sf_comment f) ++ (if for_struct then [tid "pub"] else []) ++ TId (sf_name f) :: TP PnColon :: emit_ty bc (sf_ty f)) ++ rest)
    = if is_ident (sf_name f) then p_ty g (emit_ty bc (sf_ty f) ++ rest) else None).
  { unfold p_named. rewrite <- !app_assoc, attrs_comment. destruct for_struct; cbn [app p_attrs tid p_vis].
    - change (str_eqb (tx "pub") (tx "pub")) with true. cbv iota. cbn [p_ident]. destruct (is_ident (sf_name f)); reflexivity.
    - destruct (str_eqb (sf_name f) (tx "pub")) eqn:Ep.
      + apply str_eqb_eq in Ep. rewrite Ep. reflexivity.
      + cbn [p_ident]. destruct (is_ident (sf_name f)); reflexivity. }
  unfold reads. rewrite E. destruct (is_ident (sf_name f)); cbn [andb]; [split; assumption|split; [left; reflexivity|discriminate]].
Qed.
Lemma unnamed_reads (for_struct : bool) g t rest : def_type_ok t = true ->
  reads (p_unnamed (p_ty g)) ((if for_struct then [tid "pub"] else []) ++ emit_ty bc t) (ok_unnamed for_struct t) (depth t <= g)%nat (TP PnComma :: rest).
Proof.
  intros Hd. destruct (ty_reads t Hd g (TP PnComma :: rest) I) as [H1 H2]. unfold p_unnamed, reads. destruct for_struct.
  - cbn [app p_attrs tid p_vis]. change (str_eqb (tx "pub") (tx "pub")) with true. cbv iota. unfold ok_unnamed. cbn [negb andb]. rewrite orb_false_r. split; assumption.
  - cbn [app]. rewrite (plain_attrs _ _ (plain_ty t Hd)).
    assert (Hv : p_vis (emit_ty bc t ++ TP PnComma :: rest) = emit_ty bc t ++ TP PnComma :: rest \/ exists path name gs, t = SExternal path name gs /\ match path with [] => name | s :: _ => s end = tx "pub").
    { destruct t as [p|t|k v|t|t|t|ts|t n|path name gs]; try (left; reflexivity).
      - left. destruct p; try reflexivity; cbn [emit_ty emit_prim]; destruct bc; reflexivity.
      - left. cbn [def_type_ok] in Hd. apply andb_true_iff in Hd as [H _]. destruct t as [p| | | | | | | |]; try discriminate; try reflexivity. destruct p; try discriminate; try reflexivity; cbn [emit_ty emit_nz_prim]; destruct bc; reflexivity.
      - destruct (str_eqb (match path with [] => name | s :: _ => s end) (tx "pub")) eqn:E.
        + right. exists path, name, gs. split; [reflexivity|]. apply str_eqb_eq. exact E.
        + left. destruct path as [|s path]; cbn [emit_ty flat_map app p_vis]; rewrite E; reflexivity. }
    destruct Hv as [Hv|(path & name & gs & -> & Hp)].
    + rewrite Hv. unfold ok_unnamed. cbn [negb andb]. destruct (ok_ty t) eqn:Eo; [split; assumption|]. cbn [orb].
      assert (En : p_ty g (emit_ty bc t ++ TP PnComma :: rest) = None) by (destruct H1 as [H1|[H1 _]]; [exact H1|discriminate]).
      split; [left; exact En|]. intros Hq _. exfalso. destruct t as [p|t|k v|t|t|t|ts|t n|path name gs]; try discriminate. destruct path as [|s path]; [discriminate|].
      apply andb_true_iff in Hq as [Hq _]. apply str_eqb_eq in Hq. subst s. cbn [emit_ty flat_map app p_vis] in Hv. change (str_eqb (tx "pub") (tx "pub")) with true in Hv. cbv iota in Hv.
      apply (f_equal (@length tt)) in Hv. cbn [length] in Hv. lia.
    + destruct path as [|s path]; subst.
      * assert (Hn : ok_unnamed false (SExternal [] (tx "pub") gs) = false) by reflexivity. rewrite Hn. split; [left|discriminate].
        cbn [emit_ty flat_map app p_vis]. change (str_eqb (tx "pub") (tx "pub")) with true. cbv iota. destruct gs; destruct g; reflexivity.
      * cbn [emit_ty flat_map app p_vis]. change (str_eqb (tx "pub") (tx "pub")) with true. cbv iota.
        assert (Eok : ok_unnamed false (SExternal (tx "pub" :: path) name gs) = path_ok false path name (negb (match gs with [] => true | _ => false end)) && forallb ok_ty gs) by reflexivity.
        rewrite Eok. cbn [def_type_ok] in Hd. rewrite forallb_forall in Hd.
        destruct g as [|g]; [split; [left; reflexivity|cbn [depth]; lia]|].
        assert (Hl : forall a r, In a gs -> stops r -> reads (p_ty g) (emit_ty bc a) (ok_ty a) (depth a <= g)%nat r).
        { intros a r Ha Hr. apply (ty_reads a (Hd a Ha)). exact Hr. }
        assert (Hb : forall a, In a gs -> begins (emit_ty bc a)) by (intros a Ha; apply begins_ty, Hd, Ha).
        assert (Hargs : forall n, reads (until_gt n (p_ty g)) (commas (emit_ty bc) gs ++ [TP PnGt]) (forallb ok_ty gs) ((length (commas (emit_ty bc) gs) < n)%nat /\ (maxs (map depth gs) <= g)%nat) (TP PnComma :: rest)).
        { intros n. eapply reads_weaken; [|apply (until_gt_reads (p_ty g) (emit_ty bc) ok_ty (fun a => depth a <= g)%nat gs Hl Hb)]. intros [Hn Hm]. split.
          - pose proof (commas_length (emit_ty bc) gs). lia.
          - intros a Ha. pose proof (maxs_in (map depth gs) (depth a) (in_map depth gs a Ha)). lia. }
        destruct gs as [|x gs].
        -- destruct (ty_path g path name false [] true (maxs [] <= g)%nat (TP PnComma :: rest) eq_refl I) as [_ [K1 K2]]. split; [exact K1|]. intros Ho Hf. apply K2; [exact Ho|]. cbn [depth map] in Hf. lia.
        -- destruct (ty_path g path name true _ _ _ (TP PnComma :: rest) Hargs I) as [_ [K1 K2]]. split; [exact K1|]. intros Ho Hf. apply K2; [exact Ho|]. cbn [depth] in Hf. lia.
Qed.

Definition fields_full (g : nat) (fs : sfields) : Prop := ss_kind fs <> SKUnit -> forall f, In f (ss_fields fs) -> (depth (sf_ty f) <= g)%nat.
Lemma fields_terminated (for_struct : bool) g fs : fields_code_ok fs = true ->
  match ss_kind fs with
  | SKNamed => forall l, l = commas (fun f => emit_comment (sf_comment f) ++ (if for_struct then [tid "pub"] else []) ++ TId (sf_name f) :: TP PnColon :: emit_ty bc (sf_ty f)) (ss_fields fs) ->
      (terminated (S (length l)) (p_named (p_ty g)) l = true -> ok_fields for_struct fs = true)
      /\ (ok_fields for_struct fs = true -> fields_full g fs -> terminated (S (length l)) (p_named (p_ty g)) l = true)
  | SKUnnamed => forall l, l = commas (fun f => (if for_struct then [tid "pub"] else []) ++ emit_ty bc (sf_ty f)) (ss_fields fs) ->
      (terminated (S (length l)) (p_unnamed (p_ty g)) l = true -> ok_fields for_struct fs = true)
      /\ (ok_fields for_struct fs = true -> fields_full g fs -> terminated (S (length l)) (p_unnamed (p_ty g)) l = true)
  | SKUnit => True
  end.
Proof.
  intros Hc. unfold fields_code_ok in Hc. rewrite forallb_forall in Hc.
  assert (Hd : forall f, In f (ss_fields fs) -> def_type_ok (sf_ty f) = true) by (intros f Hf; specialize (Hc f Hf); apply andb_true_iff in Hc as [H _]; exact H).
  unfold ok_fields, fields_full. destruct (ss_kind fs); [| |exact I]; intros l ->.
  - edestruct (terminated_reads (p_named (p_ty g)) (fun f => emit_comment (sf_comment f) ++ (if for_struct then [tid "pub"] else []) ++ TId (sf_name f) :: TP PnColon :: emit_ty bc (sf_ty f))
      (fun f => is_ident (sf_name f) && ok_ty (sf_ty f)) (fun f => depth (sf_ty f) <= g)%nat (ss_fields fs)) as [H1 H2].
    { intros a rest Ha. apply named_reads; [apply Hd; exact Ha|exact I]. }
    split; [exact H1|]. intros Ho Hf. apply H2; [exact Ho| |apply Hf; discriminate]. apply Nat.lt_succ_r, commas_length.
  - edestruct (terminated_reads (p_unnamed (p_ty g)) (fun f => (if for_struct then [tid "pub"] else []) ++ emit_ty bc (sf_ty f))
      (fun f => ok_unnamed for_struct (sf_ty f)) (fun f => depth (sf_ty f) <= g)%nat (ss_fields fs)) as [H1 H2].
    { intros a rest Ha. apply unnamed_reads, Hd, Ha. }
    split; [exact H1|]. intros Ho Hf. apply H2; [exact Ho| |apply Hf; discriminate]. apply Nat.lt_succ_r, commas_length.
Qed.

(** * Definitions *)
Lemma ident_reads ok n rest : reads (p_ident ok) [TId n] (ok n) True rest.
Proof. unfold reads. cbn [app p_ident]. destruct (ok n); [split; [right; auto|auto]|split; [left; reflexivity|discriminate]]. Qed.
Lemma generics_reads_lt gs rest : (match rest with TP PnLt :: _ => False | _ => True end) -> reads p_generics (emit_generics gs) (forallb is_ident gs) True rest.
Proof.
  intros Hs. destruct gs as [|x gs].
  - apply reads_done. cbn [emit_generics app]. unfold p_generics. destruct rest as [|[|[]| |] rest]; cbn in Hs; try reflexivity; contradiction.
  - cbn [emit_generics]. unfold angle, p_generics, reads. cbn [app]. set (e := (commas (fun n => [TId n]) (x :: gs) ++ [TP PnGt]) ++ rest).
    destruct (until_gt_reads (p_ident is_ident) (fun n => [TId n]) is_ident (fun _ => True) (x :: gs)) with (n := S (length e)) (rest := rest) as [H1 H2].
    { intros a r _ _. apply ident_reads. } { intros a _. exact I. }
    split; [exact H1|]. intros Ho _. apply H2; [exact Ho|]. split; [|intros; exact I]. unfold e. rewrite !app_length. pose proof (commas_length (fun n : str => [TId n]) (x :: gs)). lia.
Qed.
Lemma generics_reads gs rest : stops rest -> reads p_generics (emit_generics gs) (forallb is_ident gs) True rest.
Proof. intros H. apply generics_reads_lt. destruct rest as [|[|[]| |] rest]; try exact I; exact H. Qed.

(** [st]: without the reading of [pub::..] in front of the type of a positional field as a visibility, which only syn's variants have. *)
Definition ok_variant_at (st : bool) (v : svariant) : bool := is_ident (sv_name v) && ok_fields st (sv_fields v).
Notation ok_variant := (ok_variant_at false).
Lemma variant_reads g v rest : fields_code_ok (sv_fields v) = true ->
  reads (p_variant (p_ty g)) (emit_variant bc v) (ok_variant v) (fields_full g (sv_fields v)) (TP PnComma :: rest).
Proof.
  intros Hc. pose proof (fields_terminated false g (sv_fields v) Hc) as Ht. unfold reads, emit_variant, ok_variant_at, p_variant, emit_fields. rewrite <- app_assoc, attrs_comment.
  cbn [app p_attrs p_ident]. destruct (is_ident (sv_name v)); cbn [andb andthen]; [|split; [left; reflexivity|discriminate]].
  destruct (ss_kind (sv_fields v)) eqn:Ek; cbn [app].
  - destruct (Ht _ eq_refl) as [H1 H2]. cbn [app] in H1, H2. split.
    + destruct (terminated _ _ _); [right; auto|left; reflexivity].
    + intros Ho Hf. rewrite (H2 Ho Hf). reflexivity.
  - destruct (Ht _ eq_refl) as [H1 H2]. cbn [app] in H1, H2. split.
    + destruct (terminated _ _ _); [right; auto|left; reflexivity].
    + intros Ho Hf. rewrite (H2 Ho Hf). reflexivity.
  - assert (Ho : ok_fields false (sv_fields v) = true) by (unfold ok_fields; rewrite Ek; reflexivity). rewrite Ho. split; [right; auto|auto].
Qed.

Context {F : Type}.
Fixpoint ok_def_at (st : bool) (d : sdef F) : bool :=
  match d with
  | SModule _ n ds => mod_name n && forallb (ok_def_at st) ds
  | SStruct _ n g fs => is_ident n && (forallb is_ident g && ok_fields true fs)
  | SEnum _ n g vs => is_ident n && (forallb is_ident g && forallb (ok_variant_at st) vs)
  | SAlias _ n g t => is_ident n && (forallb is_ident g && ok_ty t)
  | SConst _ n _ _ => is_ident n
  | SImport segs e => forallb use_name segs && match e with Some n => use_name n | None => true end
  end.
Notation ok_def := (ok_def_at false).
(** The bounds suffice: [g] for types, [f] for modules. *)
Fixpoint full (g : nat) (d : sdef F) : Prop :=
  match d with
  | SModule _ _ ds => fold_right (fun d P => full g d /\ P) True ds
  | SStruct _ _ _ fs => fields_full g fs
  | SEnum _ _ _ vs => forall v, In v vs -> fields_full g (sv_fields v)
  | SAlias _ _ _ t => (depth t <= g)%nat
  | SConst _ _ _ _ => (3 <= g)%nat
  | SImport _ _ => True
  end.
Fixpoint nesting (d : sdef F) : nat := match d with SModule _ _ ds => S (maxs (map nesting ds)) | _ => 0 end.

Lemma use_reads segs e rest n : (length segs < n)%nat -> p_use (S n) (tid "super" :: path_tail segs ++ (match e with Some x => [TP PnPathSep; TId x] | None => [] end) ++ TP PnSemi :: rest)
  = if forallb use_name segs && match e with Some x => use_name x | None => true end then Some (TP PnSemi :: rest) else None.
Proof.
  assert (H : forall segs x n, (length segs < n)%nat -> p_use (S n) (TId x :: path_tail segs ++ (match e with Some x => [TP PnPathSep; TId x] | None => [] end) ++ TP PnSemi :: rest)
     = if use_name x && (forallb use_name segs && match e with Some x => use_name x | None => true end) then Some (TP PnSemi :: rest) else None).
  { clear. induction segs as [|s segs IH]; intros x n Hn.
    - cbn [path_tail app forallb andb]. destruct e as [y|]; cbn [app].
      + destruct n as [|n]; [inversion Hn|]. cbn [p_use]. destruct (use_name x), (use_name y); reflexivity.
      + cbn [p_use]. rewrite andb_true_r. reflexivity.
    - destruct n as [|n]; [inversion Hn|]. cbn [length] in Hn. specialize (IH s n ltac:(lia)). cbn [path_tail app forallb].
      assert (E : forall r, p_use (S (S n)) (TId x :: TP PnPathSep :: r) = if use_name x then p_use (S n) r else None) by reflexivity. rewrite E, IH.
      destruct (use_name x); cbn [andb]; [rewrite andb_assoc; reflexivity|reflexivity]. }
  intros Hn. exact (H segs (tx "super") n Hn).
Qed.
Lemma value_reads (v : lit F) rest : p_value (emit_lit v ++ rest) = Some rest.
Proof. destruct v as [[]|z| | |]; try reflexivity. cbn [emit_lit]. destruct (z <? 0)%Z; reflexivity. Qed.
Lemma const_ty_reads g t rest : const_type_ok t = true -> stops rest -> reads (p_ty g) (emit_const_ty bc t) true (3 <= g)%nat rest.
Proof.
  intros Ht Hs. destruct t as [p| | | | | | | |]; try discriminate.
  assert (Hp : reads (p_ty g) (emit_prim bc p) true (3 <= g)%nat rest) by (apply prim_reads; exact Hs).
  assert (Hr : forall e, (forall g, reads (p_ty g) e true (2 <= g)%nat rest) -> reads (p_ty g) (TP PnAmp :: e) true (3 <= g)%nat rest).
  { intros e He. destruct g as [|g]; [apply zero_fuel; lia|]. destruct (He g) as [H1 H2]. split; [exact H1|]. intros Ho Hf. apply H2; [exact Ho|lia]. }
  destruct p; try discriminate; try exact Hp; apply (Hr [_]); intros g'.
  1,2: eapply reads_weaken; [|apply (word_reads (tx "str") g' rest eq_refl Hs)]; lia.
  1,2: destruct g' as [|g']; [apply zero_fuel; lia|]; destruct g' as [|g']; [split; [left; reflexivity|lia]|]; apply reads_done; reflexivity.
Qed.
Lemma all_full g (ds : list (sdef F)) : fold_right (fun d P => full g d /\ P) True ds <-> forall d, In d ds -> full g d.
Proof.
  induction ds as [|d ds IH]; cbn [fold_right]; [split; [intros _ d []|trivial]|]. rewrite IH. split.
  - intros [H1 H2] x [<-|Hx]; auto.
  - intros H. split; [apply H; left; reflexivity|intros x Hx; apply H; right; exact Hx].
Qed.


Lemma prelude_item ty items X : p_item ty items (emit_prelude ++ X) = Some X.
Proof. reflexivity. Qed.
Lemma emit_def_cons (d : sdef F) : emit_def bc d <> [].
Proof. destruct d as [c n ds|c n gs fs|c n gs vs|c n gs t|c n t v|segs e]; cbn [emit_def]; try discriminate; unfold emit_comment; destruct c; discriminate. Qed.
Lemma flat_length (ds : list (sdef F)) : (length ds <= length (flat_map (emit_def bc) ds))%nat.
Proof. induction ds as [|d ds IH]; cbn [flat_map length]; [lia|]. rewrite app_length. pose proof (emit_def_cons d). destruct (emit_def bc d); [contradiction|]. cbn [length]. lia. Qed.
Lemma items_reads g f (ds : list (sdef F)) :
  (forall d f rest, In d ds -> reads (p_item (p_ty g) (p_items g f)) (emit_def bc d) (ok_def d) (full g d /\ (nesting d <= f)%nat) rest) ->
  (p_items g f (emit_prelude ++ flat_map (emit_def bc) ds) = true -> forallb ok_def ds = true)
  /\ (forallb ok_def ds = true -> (forall d, In d ds -> full g d /\ (S (nesting d) <= f)%nat) -> (1 <= f)%nat -> p_items g f (emit_prelude ++ flat_map (emit_def bc) ds) = true).
Proof.
  intros H. destruct f as [|f]; [split; [discriminate|intros _ _ Hf; inversion Hf]|].
  assert (E : p_items g (S f) (emit_prelude ++ flat_map (emit_def bc) ds)
     = p_repeated (length (emit_prelude ++ flat_map (emit_def bc) ds)) (p_item (p_ty g) (p_items g f)) (flat_map (emit_def bc) ds)).
  { cbn [p_items]. cbn [p_repeated]. rewrite prelude_item. reflexivity. }
  rewrite E. destruct (repeated_reads (p_item (p_ty g) (p_items g f)) (emit_def bc) ok_def (fun d => full g d /\ (nesting d <= f)%nat) ds (fun d rest Hd => H d f rest Hd) (fun d _ => emit_def_cons d)
     (length (emit_prelude ++ flat_map (emit_def bc) ds))) as [H1 H2].
  split; [exact H1|]. intros Ho Hf _. apply H2; [exact Ho| |].
  - rewrite app_length. pose proof (flat_length ds). cbn [emit_prelude length]. lia.
  - intros d Hd. destruct (Hf d Hd) as [F1 F2]. split; [exact F1|lia].
Qed.
Ltac kw := cbn [app p_attrs p_vis tid]; change (str_eqb (tx "pub") (tx "pub")) with true; cbv iota;
  change (str_eqb (tx "struct") (tx "mod")) with false; change (str_eqb (tx "struct") (tx "struct")) with true;
  change (str_eqb (tx "enum") (tx "mod")) with false; change (str_eqb (tx "enum") (tx "struct")) with false; change (str_eqb (tx "enum") (tx "enum")) with true;
  change (str_eqb (tx "type") (tx "mod")) with false; change (str_eqb (tx "type") (tx "struct")) with false; change (str_eqb (tx "type") (tx "enum")) with false; change (str_eqb (tx "type") (tx "type")) with true;
  change (str_eqb (tx "const") (tx "mod")) with false; change (str_eqb (tx "const") (tx "struct")) with false; change (str_eqb (tx "const") (tx "enum")) with false; change (str_eqb (tx "const") (tx "type")) with false; change (str_eqb (tx "const") (tx "const")) with true;
  cbv iota.
Lemma def_reads g (d : sdef F) : generates d = true -> forall f rest,
  reads (p_item (p_ty g) (p_items g f)) (emit_def bc d) (ok_def d) (full g d /\ (nesting d <= f)%nat) rest.
Proof.
  induction d as [c n ds IH|d Hno] using PropGoOut.sdef_ind2; intros Hg f rest.
  - cbn [generates] in Hg. rewrite forallb_forall in Hg.
    assert (E : p_item (p_ty g) (p_items g f) (emit_def bc (SModule c n ds) ++ rest)
      = if mod_name n then (if p_items g f (emit_prelude ++ flat_map (emit_def bc) ds) then Some rest else None) else None).
    { cbn [emit_def]. rewrite <- app_assoc. unfold p_item. rewrite attrs_comment. cbn [app p_attrs p_vis tid].
      change (str_eqb (tx "pub") (tx "pub")) with true. cbv iota. change (str_eqb (tx "mod") (tx "mod")) with true. cbv iota. cbn [p_ident]. destruct (mod_name n); reflexivity. }
    unfold reads. rewrite E. cbn [ok_def_at]. destruct (mod_name n); cbn [andb]; [|split; [left; reflexivity|discriminate]].
    destruct (items_reads g f ds (fun d f rest Hd => IH d Hd (Hg d Hd) f rest)) as [H1 H2]. split.
    + destruct (p_items g f _); [right; auto|left; reflexivity].
    + intros Ho [Hf Hn]. cbn [full] in Hf. rewrite all_full in Hf. cbn [nesting] in Hn. rewrite H2; [reflexivity|exact Ho| |lia].
      intros d Hd. split; [apply Hf; exact Hd|]. pose proof (maxs_in (map nesting ds) (nesting d) (in_map nesting ds d Hd)). lia.
  - destruct d as [c n ds|c n gs fs|c n gs vs|c n gs t|c n t v|segs e]; [exfalso; eapply Hno; reflexivity|..]; clear Hno; cbn [generates] in Hg.
    + assert (E : p_item (p_ty g) (p_items g f) (emit_def bc (@SStruct F c n gs fs) ++ rest)
        = p_struct (p_ty g) (TId n :: emit_generics gs ++ emit_fields bc true fs ++ (match ss_kind fs with SKNamed => [] | _ => [TP PnSemi] end) ++ rest)).
      { cbn [emit_def]. rewrite <- !app_assoc. unfold p_item. rewrite attrs_comment. unfold attr_derive, attr_allow. kw. rewrite <- !app_assoc. reflexivity. }
      unfold reads. rewrite E. unfold p_struct. cbn [p_ident ok_def_at]. destruct (is_ident n); cbn [andthen andb]; [|split; [left; reflexivity|discriminate]].
      set (X := emit_fields bc true fs ++ (match ss_kind fs with SKNamed => [] | _ => [TP PnSemi] end) ++ rest).
      assert (Hs : stops X) by (unfold X, emit_fields; destruct (ss_kind fs); exact I).
      destruct (generics_reads gs X Hs) as [G1 G2]. pose proof (fields_terminated true g fs Hg) as Ht.
      assert (HX : (match X with TG Brace l :: r' => if terminated (S (length l)) (p_named (p_ty g)) l then Some r' else None
                    | TG Paren l :: r' => if terminated (S (length l)) (p_unnamed (p_ty g)) l then semi r' else None | _ => semi X end = None
                    \/ (ok_fields true fs = true /\ match X with TG Brace l :: r' => if terminated (S (length l)) (p_named (p_ty g)) l then Some r' else None
                    | TG Paren l :: r' => if terminated (S (length l)) (p_unnamed (p_ty g)) l then semi r' else None | _ => semi X end = Some rest))
                 /\ (ok_fields true fs = true -> fields_full g fs -> match X with TG Brace l :: r' => if terminated (S (length l)) (p_named (p_ty g)) l then Some r' else None
                    | TG Paren l :: r' => if terminated (S (length l)) (p_unnamed (p_ty g)) l then semi r' else None | _ => semi X end = Some rest)).
      { unfold X, emit_fields. destruct (ss_kind fs) eqn:Ek; cbn [app] in Ht |- *.
        - destruct (Ht _ eq_refl) as [H1 H2]. split; [destruct (terminated _ _ _); [right; auto|left; reflexivity]|]. intros Ho Hf. rewrite (H2 Ho Hf). reflexivity.
        - destruct (Ht _ eq_refl) as [H1 H2]. split; [destruct (terminated _ _ _); [right; auto|left; reflexivity]|]. intros Ho Hf. rewrite (H2 Ho Hf). reflexivity.
        - unfold ok_fields. rewrite Ek. cbn. split; [right; auto|auto]. }
      destruct HX as [X1 X2]. split.
      * destruct G1 as [->|[-> ->]]; [left; reflexivity|]. exact X1.
      * intros Ho [Hf _]. apply andb_true_iff in Ho as [Og Of]. rewrite (G2 Og I). cbn [andthen]. apply X2; [exact Of|exact Hf].
    + assert (E : p_item (p_ty g) (p_items g f) (emit_def bc (@SEnum F c n gs vs) ++ rest)
        = p_enum (p_ty g) (TId n :: emit_generics gs ++ [TG Brace (commas (emit_variant bc) vs)] ++ rest)).
      { cbn [emit_def]. rewrite <- !app_assoc. unfold p_item. rewrite attrs_comment. unfold attr_derive, attr_allow. kw. rewrite <- !app_assoc. reflexivity. }
      unfold reads. rewrite E. unfold p_enum. cbn [p_ident ok_def_at]. destruct (is_ident n); cbn [andthen andb]; [|split; [left; reflexivity|discriminate]].
      cbn [app]. destruct (generics_reads gs (TG Brace (commas (emit_variant bc) vs) :: rest) I) as [G1 G2]. rewrite forallb_forall in Hg.
      destruct (terminated_reads (p_variant (p_ty g)) (emit_variant bc) ok_variant (fun v => fields_full g (sv_fields v)) vs) with (n := S (length (commas (emit_variant bc) vs))) as [H1 H2].
      { intros v r Hv. apply variant_reads. exact (Hg v Hv). }
      split.
      * destruct G1 as [->|[-> ->]]; [left; reflexivity|]. cbn [andthen andb]. destruct (terminated _ _ _); [right; auto|left; reflexivity].
      * intros Ho [Hf _]. apply andb_true_iff in Ho as [Og Of]. rewrite (G2 Og I). cbn [andthen]. rewrite H2; [reflexivity|exact Of| |exact Hf].
        apply Nat.lt_succ_r, commas_length.
    + assert (E : p_item (p_ty g) (p_items g f) (emit_def bc (@SAlias F c n gs t) ++ rest) = p_alias (p_ty g) (TId n :: emit_generics gs ++ TP PnEq :: emit_ty bc t ++ TP PnSemi :: rest)).
      { cbn [emit_def]. rewrite <- !app_assoc. unfold p_item. rewrite attrs_comment. unfold attr_allow. kw. rewrite <- !app_assoc. cbn [app]. rewrite <- !app_assoc. reflexivity. }
      unfold reads. rewrite E. unfold p_alias. cbn [p_ident ok_def_at]. destruct (is_ident n); cbn [andthen andb]; [|split; [left; reflexivity|discriminate]].
      destruct (generics_reads gs (TP PnEq :: emit_ty bc t ++ TP PnSemi :: rest) I) as [G1 G2]. destruct (ty_reads t Hg g (TP PnSemi :: rest) I) as [T1 T2]. split.
      * destruct G1 as [->|[-> ->]]; [left; reflexivity|]. cbn [andthen andb]. destruct T1 as [->|[-> ->]]; [left; reflexivity|]. right. auto.
      * intros Ho [Hf _]. apply andb_true_iff in Ho as [Og Of]. rewrite (G2 Og I). cbn [andthen]. rewrite (T2 Of Hf). reflexivity.
    + assert (E : p_item (p_ty g) (p_items g f) (emit_def bc (SConst c n t v) ++ rest) = p_const (p_ty g) (TId n :: TP PnColon :: emit_const_ty bc t ++ TP PnEq :: emit_lit v ++ TP PnSemi :: rest)).
      { cbn [emit_def]. rewrite <- !app_assoc. unfold p_item. rewrite attrs_comment. unfold attr_allow. kw. rewrite <- !app_assoc. cbn [app]. rewrite <- !app_assoc. reflexivity. }
      unfold reads. rewrite E. unfold p_const. cbn [p_ident ok_def_at]. destruct (is_ident n); cbn [andthen andb]; [|split; [left; reflexivity|discriminate]].
      destruct (const_ty_reads g t (TP PnEq :: emit_lit v ++ TP PnSemi :: rest) Hg I) as [T1 T2]. pose proof (value_reads v (TP PnSemi :: rest)) as Hv. split.
      * destruct T1 as [->|[_ ->]]; [left; reflexivity|]. cbn [andthen]. rewrite Hv. right. auto.
      * intros _ [Hf _]. cbn [full] in Hf. rewrite (T2 eq_refl Hf). cbn [andthen]. rewrite Hv. reflexivity.
    + assert (E : p_item (p_ty g) (p_items g f) (emit_def bc (@SImport F segs e) ++ rest) = p_import (tid "super" :: path_tail segs ++ (match e with Some x => [TP PnPathSep; TId x] | None => [] end) ++ TP PnSemi :: rest)).
      { cbn [emit_def]. cbn [app]. rewrite <- !app_assoc. reflexivity. }
      unfold reads. rewrite E. set (ts := tid "super" :: _).
      assert (Em : p_import ts = andthen (p_use (S (length ts)) ts) semi) by reflexivity. rewrite Em.
      assert (Eu : p_use (S (length ts)) ts = if forallb use_name segs && match e with Some x => use_name x | None => true end then Some (TP PnSemi :: rest) else None).
      { apply use_reads. unfold ts. cbn [length]. rewrite app_length. assert (length segs <= length (path_tail segs))%nat; [|lia]. clear. induction segs; cbn [path_tail length]; lia. }
      rewrite Eu. clear Eu Em E. clearbody ts.
      cbn [ok_def_at]. destruct (forallb use_name segs && _); [split; [right; split; reflexivity|intros _ _; reflexivity]|split; [left; reflexivity|discriminate]].
Qed.

(** * The bounds of [syn_parse2] suffice *)
Lemma tsizes_app a b : tsizes (a ++ b) = (tsizes a + tsizes b)%nat.
Proof. unfold tsizes. rewrite map_app, list_sum_app. reflexivity. Qed.
Lemma tsizes_cons x l : tsizes (x :: l) = (tsize x + tsizes l)%nat.
Proof. reflexivity. Qed.
Lemma tsizes_group d l r : tsizes (TG d l :: r) = (S (tsizes l) + tsizes r)%nat.
Proof. reflexivity. Qed.
Lemma tsizes_flat {A} (e : A -> list tt) l a : In a l -> (tsizes (e a) <= tsizes (flat_map e l))%nat.
Proof.
  induction l as [|x l IH]; intros H; [destruct H|]. cbn [flat_map]. rewrite tsizes_app. destruct H as [->|H]; [|specialize (IH H)]; lia.
Qed.
Lemma tsizes_commas {A} (e : A -> list tt) l a : In a l -> (tsizes (e a) < tsizes (commas e l))%nat.
Proof. intros H. pose proof (tsizes_flat (fun a => e a ++ [TP PnComma]) l a H) as Hf. cbv beta in Hf. rewrite tsizes_app in Hf. unfold commas. cbn in Hf |- *. lia. Qed.
Lemma maxs_le l n : (forall x, In x l -> (x <= n)%nat) -> (maxs l <= n)%nat.
Proof. unfold maxs. induction l as [|x l IH]; intros H; cbn [fold_right]; [lia|]. pose proof (H x (or_introl eq_refl)). specialize (IH (fun y Hy => H y (or_intror Hy))). lia. Qed.
Definition bounded_ty (t : sty) : Prop := def_type_ok t = true -> (depth t <= tsizes (emit_ty bc t) + 2)%nat.
Ltac sizes := cbn [emit_ty emit_prim emit_nz_prim]; unfold angle, std, mabo, tid; repeat (rewrite ?tsizes_app, ?tsizes_group, ?tsizes_cons; cbn [tsize app]); change (tsizes []) with 0%nat.
Lemma ty_bounded2 t : bounded_ty t /\ match t with SVec t | SHashSet t => bounded_ty t | SHashMap k v => bounded_ty k /\ bounded_ty v | _ => True end.
Proof.
  unfold bounded_ty.
  induction t as [p|t IH|k v IHk IHv|t IH|t IH|t IH|ts IH|t n IH|path name gs IH] using LowerProofs.sty_ind2;
    (split; [intros Hd; cbn [def_type_ok] in Hd|try exact I; try (apply IH); try (split; [apply IHk|apply IHv])]).
  - cbn [depth]. assert (1 <= tsizes (emit_ty bc (SPrim p)))%nat; [|lia]. destruct p; try (cbn; lia); cbn [emit_ty emit_prim]; destruct bc; cbn; lia.
  - destruct IH as [IH _]. specialize (IH Hd). cbn [depth]. sizes. lia.
  - apply andb_true_iff in Hd as [D1 D2]. pose proof (proj1 IHk D1). pose proof (proj1 IHv D2). cbn [depth]. sizes. lia.
  - destruct IH as [IH _]. specialize (IH Hd). cbn [depth]. sizes. lia.
  - destruct IH as [IH _]. specialize (IH Hd). cbn [depth]. sizes. lia.
  - apply andb_true_iff in Hd as [Hn Hd]. destruct IH as [_ IH].
    destruct t as [p|t|k v|t|t|t|ts|t n|path name gs]; try discriminate Hn; cbn [def_type_ok] in Hd; cbn [depth].
    + assert (1 <= tsizes (emit_ty bc (SNonZero (SPrim p))))%nat; [|lia]. destruct p; try discriminate Hn; try (cbn; lia); cbn [emit_ty emit_nz_prim]; destruct bc; cbn; lia.
    + specialize (IH Hd). sizes. lia.
    + apply andb_true_iff in Hd as [D1 D2]. pose proof (proj1 IH D1). pose proof (proj2 IH D2). sizes. lia.
    + specialize (IH Hd). sizes. lia.
  - rewrite forallb_forall in Hd. cbn [depth]. sizes.
    assert (maxs (map depth ts) <= tsizes (commas (emit_ty bc) ts) + 2)%nat; [|lia]. apply maxs_le. intros x Hx. apply in_map_iff in Hx as (t & <- & Ht).
    pose proof (proj1 (IH t Ht) (Hd t Ht)). pose proof (tsizes_commas (emit_ty bc) ts t Ht). lia.
  - destruct IH as [IH _]. specialize (IH Hd). cbn [depth]. sizes. lia.
  - rewrite forallb_forall in Hd. cbn [depth]. destruct gs as [|g gs]; [cbn [map maxs fold_right]; sizes; lia|].
    cbn [emit_ty]. sizes. assert (maxs (map depth (g :: gs)) <= tsizes (commas (emit_ty bc) (g :: gs)) + 2)%nat; [|lia]. apply maxs_le. intros x Hx. apply in_map_iff in Hx as (t & <- & Ht).
    pose proof (proj1 (IH t Ht) (Hd t Ht)). pose proof (tsizes_commas (emit_ty bc) (g :: gs) t Ht). lia.
Qed.
Lemma fields_bounded (for_struct : bool) fs : fields_code_ok fs = true -> fields_full (tsizes (emit_fields bc for_struct fs) + 2) fs.
Proof.
  intros Hc. unfold fields_code_ok in Hc. rewrite forallb_forall in Hc. unfold emit_fields. intros Hk f Hf. destruct (ss_kind fs) eqn:Ek; [| |contradiction];
    (specialize (Hc f Hf); apply andb_true_iff in Hc as [Hd _]; pose proof (proj1 (ty_bounded2 (sf_ty f)) Hd) as Hb; sizes).
  - pose proof (tsizes_commas (fun f => emit_comment (sf_comment f) ++ (if for_struct then [tid "pub"] else []) ++ TId (sf_name f) :: TP PnColon :: emit_ty bc (sf_ty f)) _ f Hf) as Ht. cbv beta in Ht. rewrite !tsizes_app, !tsizes_cons in Ht.
    unfold tid in Ht. lia.
  - pose proof (tsizes_commas (fun f => (if for_struct then [tid "pub"] else []) ++ emit_ty bc (sf_ty f)) _ f Hf) as Ht. cbv beta in Ht. rewrite !tsizes_app in Ht. unfold tid in Ht. lia.
Qed.
Lemma fields_mono g g' fs : (g <= g')%nat -> fields_full g fs -> fields_full g' fs.
Proof. intros H Hf Hk f Hin. specialize (Hf Hk f Hin). lia. Qed.
Lemma full_mono g g' (d : sdef F) : (g <= g')%nat -> full g d -> full g' d.
Proof.
  intros Hg. induction d as [c n ds IH|d Hno] using PropGoOut.sdef_ind2.
  - cbn [full]. rewrite !all_full. intros H d Hd. apply IH; auto.
  - destruct d; cbn [full]; try (intros; lia); try (intros; exact I); [exfalso; eapply Hno; reflexivity| |].
    + apply fields_mono. exact Hg.
    + intros H v Hv. apply (fields_mono g); auto.
Qed.
Lemma def_bounded (d : sdef F) : generates d = true -> full (tsizes (emit_def bc d) + 2) d /\ (nesting d <= tsizes (emit_def bc d))%nat.
Proof.
  induction d as [c n ds IH|d Hno] using PropGoOut.sdef_ind2; intros Hg.
  - cbn [generates] in Hg. rewrite forallb_forall in Hg. cbn [full nesting emit_def]. rewrite all_full. sizes. fold (tsizes (emit_prelude ++ flat_map (emit_def bc) ds)). rewrite tsizes_app. split.
    + intros d Hd. destruct (IH d Hd (Hg d Hd)) as [H _]. eapply full_mono; [|exact H]. pose proof (tsizes_flat (emit_def bc) ds d Hd). lia.
    + assert (maxs (map nesting ds) <= tsizes (flat_map (emit_def bc) ds))%nat; [|lia]. apply maxs_le. intros x Hx. apply in_map_iff in Hx as (d & <- & Hd).
      destruct (IH d Hd (Hg d Hd)) as [_ H]. pose proof (tsizes_flat (emit_def bc) ds d Hd). lia.
  - destruct d as [c n ds|c n gs fs|c n gs vs|c n gs t|c n t v|segs e]; [exfalso; eapply Hno; reflexivity|..]; cbn [generates] in Hg; (split; [|cbn [nesting]; lia]); cbn [full emit_def].
    + eapply fields_mono; [|exact (fields_bounded true fs Hg)]. rewrite !tsizes_app, !tsizes_cons, !tsizes_app. lia.
    + rewrite forallb_forall in Hg. intros v Hv. eapply fields_mono; [|exact (fields_bounded false (sv_fields v) (Hg v Hv))].
      rewrite !tsizes_app, !tsizes_cons, !tsizes_app, tsizes_group. pose proof (tsizes_commas (emit_variant bc) vs v Hv) as H. unfold emit_variant at 1 in H. rewrite tsizes_app, tsizes_cons in H. lia.
    + pose proof (proj1 (ty_bounded2 t) Hg). rewrite !tsizes_app, !tsizes_cons, !tsizes_app, !tsizes_cons, !tsizes_app. lia.
    + rewrite !tsizes_app, !tsizes_cons. cbn [tsize]. lia.
    + exact I.
Qed.

(** syn accepts exactly the schemas whose names are all accepted at their places. *)
Theorem syn_parse2_exact (o : comment * list (sdef F)) : forallb generates (snd o) = true -> syn_parse2 (emit_schema bc o) = forallb ok_def (snd o).
Proof.
  intros Hg. rewrite forallb_forall in Hg. unfold syn_parse2, emit_schema. set (N := tsizes (emit_prelude ++ flat_map (emit_def bc) (snd o))).
  destruct (items_reads (S N) (S N) (snd o) (fun d f rest Hd => def_reads (S N) d (Hg d Hd) f rest)) as [H1 H2].
  destruct (p_items (S N) (S N) _) eqn:E; [symmetry; apply H1; reflexivity|]. destruct (forallb ok_def (snd o)); [|reflexivity]. exfalso.
  assert (false = true); [|discriminate]. apply H2; [reflexivity| |lia]. intros d Hd. destruct (def_bounded d (Hg d Hd)) as [B1 B2].
  pose proof (tsizes_flat (emit_def bc) (snd o) d Hd) as Hf.
  assert (HN : (tsizes (flat_map (emit_def bc) (snd o)) + 5 <= N)%nat) by (unfold N; rewrite tsizes_app; assert (5 <= tsizes emit_prelude)%nat by (vm_compute; lia); lia).
  split; [eapply full_mono; [|exact B1]; lia|lia].
Qed.
End Types.
