(** Lemmas on the server's documents over whole sessions. *)
From Verif Require Import Base Syntax Lsp LspSpec LspProofs.
Local Open Scope N_scope.

Section Server.
Context {S : Type} (compile : str -> str -> index -> S).
Notation server := (@server S).
Notation file := (@file S).
Notation store := (@store S).

Lemma str_eqb_neq a b : a <> b -> str_eqb a b = false.
Proof. intros H. destruct (str_eqb a b) eqn:E; [apply str_eqb_eq in E; contradiction|reflexivity]. Qed.

Lemma st_get_filter (f : str -> bool) (s : store) uri :
  st_get (filter (fun x => f (fst x)) s) uri = if f uri then st_get s uri else None.
Proof.
  induction s as [|[u x] s IH]; cbn [filter fst]; [destruct (f uri); reflexivity|].
  destruct (f u) eqn:Eu; cbn [st_get].
  - destruct (str_eqb u uri) eqn:E; [apply str_eqb_eq in E; subst u; rewrite Eu; reflexivity|exact IH].
  - destruct (str_eqb u uri) eqn:E; [apply str_eqb_eq in E; subst u; rewrite Eu; rewrite Eu in IH; exact IH|exact IH].
Qed.
Lemma st_get_remove (s : store) u uri : st_get (st_remove s u) uri = if str_eqb uri u then None else st_get s uri.
Proof.
  unfold st_remove. rewrite (st_get_filter (fun x => negb (str_eqb x u)) s uri). destruct (str_eqb uri u); reflexivity.
Qed.
Lemma str_eqb_sym a b : str_eqb a b = str_eqb b a.
Proof.
  destruct (str_eqb a b) eqn:E; [apply str_eqb_eq in E; subst; symmetry; apply str_eqb_refl|].
  destruct (str_eqb b a) eqn:E'; [apply str_eqb_eq in E'; subst; rewrite str_eqb_refl in E; discriminate|reflexivity].
Qed.
Lemma st_get_insert (s : store) u f uri : st_get (st_insert s u f) uri = if str_eqb u uri then Some f else st_get s uri.
Proof.
  unfold st_insert. cbn [st_get]. destruct (str_eqb u uri) eqn:E; [reflexivity|].
  rewrite st_get_remove, str_eqb_sym, E. reflexivity.
Qed.

(** A document's rope, index and schema belong to its content. *)
Definition consistent (enc : option wenc) (uri : str) (f : file) : Prop :=
  f_rope f = f_content f /\ index_of enc (f_content f) (f_index f) /\ f_schema f = compile uri (f_content f) (f_index f).
Definition all_consistent (sv : server) : Prop :=
  forall uri f, document sv uri = Some f -> consistent (sv_enc sv) uri f.

Lemma create_consistent enc uri t f : create_file compile enc uri t = Some f -> consistent enc uri f /\ f_content f = t.
Proof.
  unfold create_file. destruct (li_new t) as [i|] eqn:E; [|discriminate]. cbn [option_map]. intros H.
  assert (f = File t (Index i enc) t (compile uri t (Index i enc))) as -> by congruence.
  unfold consistent, index_of. cbn [f_rope f_content f_index f_schema]. split; [|reflexivity]. split; [reflexivity|]. split; [eauto|reflexivity].
Qed.
Lemma create_some enc uri t : bytes_len t < 2 ^ 32 -> exists f, create_file compile enc uri t = Some f.
Proof. intros H. unfold create_file. destruct (li_new_some t H) as [i ->]. cbn. eauto. Qed.

Lemma update_consistent enc uri f0 up f :
  consistent enc uri f0 -> update_file compile uri f0 up = Some f ->
  consistent enc uri f /\ up (f_content f0) (f_index f0) = Some (f_content f).
Proof.
  intros (Hr & (i0 & Hi0 & Hx) & Hs). unfold update_file. rewrite Hr. destruct (up (f_content f0) (f_index f0)) as [t|]; [|discriminate].
  destruct (li_new t) as [i|] eqn:E; [|discriminate]. cbn [option_map]. rewrite Hx. cbn [ix_encoding]. intros H.
  assert (f = File t (Index i enc) t (compile uri t (Index i enc))) as -> by congruence.
  unfold consistent, index_of. cbn [f_rope f_content f_index f_schema]. split; [|reflexivity]. split; [reflexivity|]. split; [eauto|reflexivity].
Qed.

Lemma step_enc chk sv e sv' : step compile chk sv e = Some sv' -> sv_enc sv' = sv_enc sv.
Proof.
  destruct e as [uri text|uri cs|uri|uris]; cbn [step].
  - unfold did_open. destruct (st_get (sv_files sv) uri) as [f|].
    + destruct (str_eqb (f_content f) text).
      * intros H. assert (sv' = Server (sv_enc sv) (sv_files sv) ((uri, f_schema f) :: sv_published sv)) as -> by congruence. reflexivity.
      * destruct (create_file compile (sv_enc sv) uri text) as [g|]; [|discriminate]. cbn [option_map]. intros H. injection H as <-. reflexivity.
    + destruct (create_file compile (sv_enc sv) uri text) as [g|]; [|discriminate]. cbn [option_map]. intros H. injection H as <-. reflexivity.
  - unfold did_change. destruct (is_full cs).
    + destruct cs as [|c cs]; [discriminate|]. destruct (create_file compile (sv_enc sv) uri (ch_text c)); [|discriminate]. cbn [option_map]. intros H. injection H as <-. reflexivity.
    + destruct (st_get (sv_files sv) uri) as [f|]; [|intros H; congruence].
      destruct (update_file compile uri f _); [|discriminate]. cbn [option_map]. intros H. injection H as <-. reflexivity.
  - unfold did_close. congruence.
  - unfold did_delete. intros H. injection H as <-. reflexivity.
Qed.

(** What a notification does to the documents. *)
Lemma step_document chk sv e sv' : step compile chk sv e = Some sv' ->
  forall uri, match e with
              | DidOpen u t =>
                  if str_eqb u uri
                  then exists f, document sv' uri = Some f /\ f_content f = t /\
                         (document sv uri = Some f \/ create_file compile (sv_enc sv) uri t = Some f)
                  else document sv' uri = document sv uri
              | DidChange u cs =>
                  if str_eqb u uri
                  then if is_full cs
                       then exists f c, cs = [c] /\ document sv' uri = Some f /\ create_file compile (sv_enc sv) uri (ch_text c) = Some f
                       else match document sv uri with
                            | None => document sv' uri = None
                            | Some f0 => exists f, document sv' uri = Some f /\
                                update_file compile uri f0 (fun rope ix => apply_changes chk ix rope cs) = Some f
                            end
                  else document sv' uri = document sv uri
              | DidClose _ => document sv' uri = document sv uri
              | DidDelete uris => document sv' uri = if existsb (fun u => str_eqb u uri) uris then None else document sv uri
              end.
Proof.
  unfold document. destruct e as [u t|u cs|u|uris]; cbn [step]; intros H uri.
  - unfold did_open in H. destruct (st_get (sv_files sv) u) as [f|] eqn:Eg.
    + destruct (str_eqb (f_content f) t) eqn:Et.
      * assert (sv' = Server (sv_enc sv) (sv_files sv) ((u, f_schema f) :: sv_published sv)) as -> by congruence. cbn [sv_files].
        destruct (str_eqb u uri) eqn:E; [|reflexivity]. apply str_eqb_eq in E. subst u. exists f. apply str_eqb_eq in Et. auto.
      * destruct (create_file compile (sv_enc sv) u t) as [g|] eqn:Ec; [|discriminate]. cbn [option_map] in H.
        assert (sv' = Server (sv_enc sv) (st_insert (sv_files sv) u g) ((u, f_schema g) :: sv_published sv)) as -> by congruence. cbn [sv_files].
        rewrite st_get_insert. destruct (str_eqb u uri) eqn:E; [|reflexivity]. apply str_eqb_eq in E. subst u. exists g.
        apply create_consistent in Ec as Hc. destruct Hc as [_ Hc]. auto.
    + destruct (create_file compile (sv_enc sv) u t) as [g|] eqn:Ec; [|discriminate]. cbn [option_map] in H.
      assert (sv' = Server (sv_enc sv) (st_insert (sv_files sv) u g) ((u, f_schema g) :: sv_published sv)) as -> by congruence. cbn [sv_files].
      rewrite st_get_insert. destruct (str_eqb u uri) eqn:E; [|reflexivity]. apply str_eqb_eq in E. subst u. exists g.
      apply create_consistent in Ec as Hc. destruct Hc as [_ Hc]. auto.
  - unfold did_change in H. destruct (is_full cs) eqn:Ef.
    + destruct cs as [|c cs]; [discriminate|]. destruct (create_file compile (sv_enc sv) u (ch_text c)) as [g|] eqn:Ec; [|discriminate].
      cbn [option_map] in H. assert (sv' = Server (sv_enc sv) (st_insert (sv_files sv) u g) ((u, f_schema g) :: sv_published sv)) as -> by congruence.
      cbn [sv_files]. rewrite st_get_insert. destruct (str_eqb u uri) eqn:E; [|reflexivity]. apply str_eqb_eq in E. subst u.
      destruct cs; [|discriminate Ef]. exists g, c. auto.
    + destruct (st_get (sv_files sv) u) as [f|] eqn:Eg.
      * destruct (update_file compile u f _) as [g|] eqn:Eu; [|discriminate]. cbn [option_map] in H.
        assert (sv' = Server (sv_enc sv) (st_insert (st_remove (sv_files sv) u) u g) ((u, f_schema g) :: sv_published sv)) as -> by congruence.
        cbn [sv_files]. rewrite st_get_insert. destruct (str_eqb u uri) eqn:E.
        -- apply str_eqb_eq in E. subst u. rewrite Eg. exists g. auto.
        -- rewrite st_get_remove, str_eqb_sym, E. reflexivity.
      * assert (sv' = sv) as -> by congruence. destruct (str_eqb u uri) eqn:E; [|reflexivity]. apply str_eqb_eq in E. subst u. rewrite Eg. reflexivity.
  - unfold did_close in H. congruence.
  - unfold did_delete in H. assert (sv' = Server (sv_enc sv) (filter (fun x => negb (existsb (fun u => str_eqb u (fst x)) uris)) (sv_files sv)) (sv_published sv)) as -> by congruence.
    cbn [sv_files]. rewrite (st_get_filter (fun x => negb (existsb (fun u => str_eqb u x) uris))). destruct (existsb _ uris); reflexivity.
Qed.

Lemma step_consistent chk sv e sv' : all_consistent sv -> step compile chk sv e = Some sv' -> all_consistent sv'.
Proof.
  intros Hall Hs uri f Hf. pose proof (step_document chk sv e sv' Hs uri) as H. rewrite (step_enc chk sv e sv' Hs).
  destruct e as [u t|u cs|u|uris].
  - destruct (str_eqb u uri); [|apply Hall; congruence]. destruct H as (g & Hg & _ & [H|H]).
    + apply Hall. congruence.
    + assert (f = g) as -> by congruence. apply create_consistent in H. apply H.
  - destruct (str_eqb u uri); [|apply Hall; congruence]. destruct (is_full cs).
    + destruct H as (g & c & _ & Hg & H). assert (f = g) as -> by congruence. apply create_consistent in H. apply H.
    + destruct (document sv uri) as [f0|] eqn:E0; [|congruence]. destruct H as (g & Hg & H). assert (f = g) as -> by congruence.
      eapply update_consistent in H; [|apply Hall; exact E0]. apply H.
  - apply Hall. congruence.
  - destruct (existsb _ uris); [congruence|]. apply Hall. congruence.
Qed.
Lemma run_consistent chk es : forall sv sv', all_consistent sv -> run compile chk sv es = Some sv' -> all_consistent sv'.
Proof.
  induction es as [|e es IH]; cbn [run]; intros sv sv' Hall H; [injection H as <-; exact Hall|].
  destruct (step compile chk sv e) as [sv1|] eqn:E; [|discriminate]. exact (IH sv1 sv' (step_consistent chk sv e sv1 Hall E) H).
Qed.
Lemma run_enc chk es : forall sv sv', run compile chk sv es = Some sv' -> sv_enc sv' = sv_enc sv.
Proof.
  induction es as [|e es IH]; cbn [run]; intros sv sv' H; [congruence|].
  destruct (step compile chk sv e) as [sv1|] eqn:E; [|discriminate]. rewrite (IH sv1 sv' H). exact (step_enc chk sv e sv1 E).
Qed.

(** * Diagnostics *)

(** What was last published for a document. *)
Fixpoint assoc {A} (l : list (str * A)) (uri : str) : option A :=
  match l with
  | [] => None
  | (u, x) :: l' => if str_eqb u uri then Some x else assoc l' uri
  end.
Definition published_ok (sv : server) : Prop :=
  forall uri s f, assoc (sv_published sv) uri = Some s -> document sv uri = Some f -> s = f_schema f.

Lemma step_published chk sv e sv' : step compile chk sv e = Some sv' ->
  match e with
  | DidOpen u _ => exists f, document sv' u = Some f /\ sv_published sv' = (u, f_schema f) :: sv_published sv
  | DidChange u _ => sv' = sv \/ exists f, document sv' u = Some f /\ sv_published sv' = (u, f_schema f) :: sv_published sv
  | _ => sv_published sv' = sv_published sv
  end.
Proof.
  unfold document. destruct e as [u t|u cs|u|uris]; cbn [step]; intros H.
  - unfold did_open in H. destruct (st_get (sv_files sv) u) as [f|] eqn:Eg.
    + destruct (str_eqb (f_content f) t) eqn:Et.
      * assert (sv' = Server (sv_enc sv) (sv_files sv) ((u, f_schema f) :: sv_published sv)) as -> by congruence. exists f. auto.
      * destruct (create_file compile (sv_enc sv) u t) as [g|] eqn:Ec; [|discriminate]. cbn [option_map] in H.
        assert (sv' = Server (sv_enc sv) (st_insert (sv_files sv) u g) ((u, f_schema g) :: sv_published sv)) as -> by congruence. cbn [sv_files sv_published].
        exists g. rewrite st_get_insert, str_eqb_refl. auto.
    + destruct (create_file compile (sv_enc sv) u t) as [g|] eqn:Ec; [|discriminate]. cbn [option_map] in H.
      assert (sv' = Server (sv_enc sv) (st_insert (sv_files sv) u g) ((u, f_schema g) :: sv_published sv)) as -> by congruence. cbn [sv_files sv_published].
      exists g. rewrite st_get_insert, str_eqb_refl. auto.
  - unfold did_change in H. destruct (is_full cs) eqn:Ef.
    + destruct cs as [|c cs]; [discriminate|]. destruct (create_file compile (sv_enc sv) u (ch_text c)) as [g|] eqn:Ec; [|discriminate].
      cbn [option_map] in H. assert (sv' = Server (sv_enc sv) (st_insert (sv_files sv) u g) ((u, f_schema g) :: sv_published sv)) as -> by congruence.
      right. exists g. cbn [sv_files sv_published]. rewrite st_get_insert, str_eqb_refl. auto.
    + destruct (st_get (sv_files sv) u) as [f|] eqn:Eg; [|left; congruence].
      destruct (update_file compile u f _) as [g|] eqn:Eu; [|discriminate]. cbn [option_map] in H.
      assert (sv' = Server (sv_enc sv) (st_insert (st_remove (sv_files sv) u) u g) ((u, f_schema g) :: sv_published sv)) as -> by congruence.
      right. exists g. cbn [sv_files sv_published]. rewrite st_get_insert, str_eqb_refl. auto.
  - unfold did_close in H. congruence.
  - unfold did_delete in H. injection H as <-. reflexivity.
Qed.

Lemma step_published_ok chk sv e sv' : published_ok sv -> step compile chk sv e = Some sv' -> published_ok sv'.
Proof.
  intros Hp Hs uri s f Ha Hd. pose proof (step_document chk sv e sv' Hs uri) as H. pose proof (step_published chk sv e sv' Hs) as P.
  destruct e as [u t|u cs|u|uris].
  - destruct P as (g & Hg & E). rewrite E in Ha. cbn [assoc] in Ha. destruct (str_eqb u uri) eqn:Eu.
    + apply str_eqb_eq in Eu. subst u. congruence.
    + apply (Hp uri); [exact Ha|congruence].
  - destruct P as [->|(g & Hg & E)]; [exact (Hp uri s f Ha Hd)|]. rewrite E in Ha. cbn [assoc] in Ha. destruct (str_eqb u uri) eqn:Eu.
    + apply str_eqb_eq in Eu. subst u. congruence.
    + apply (Hp uri); [exact Ha|congruence].
  - rewrite P in Ha. apply (Hp uri); [exact Ha|congruence].
  - rewrite P in Ha. destruct (existsb _ uris); [congruence|]. apply (Hp uri); [exact Ha|congruence].
Qed.
Lemma run_published chk es : forall sv sv', published_ok sv -> run compile chk sv es = Some sv' -> published_ok sv'.
Proof.
  induction es as [|e es IH]; cbn [run]; intros sv sv' Hall H; [injection H as <-; exact Hall|].
  destruct (step compile chk sv e) as [sv1|] eqn:E; [|discriminate]. exact (IH sv1 sv' (step_published_ok chk sv e sv1 Hall E) H).
Qed.

(** * Sessions *)

Definition in_sync (sv : server) (ed : editor) : Prop :=
  forall uri, option_map f_content (document sv uri) = ed uri.

Lemma is_full_true cs : is_full cs = true -> exists t, cs = [Change None t].
Proof.
  destruct cs as [|[[r|] t] [|c' cs]]; cbn; try discriminate. eauto.
Qed.

(** A notification of a session does not panic and keeps the documents in sync. *)
Lemma step_ok chk sv ed e ed' : all_consistent sv -> in_sync sv ed ->
  (forall uri, tracked true (sv_enc sv) uri (ed uri) e (ed' uri)) -> small ed' ->
  exists sv', step compile chk sv e = Some sv' /\ in_sync sv' ed'.
Proof.
  intros Hc Hs Ht Hsm.
  assert (Hex : exists sv', step compile chk sv e = Some sv').
  { destruct e as [u t|u cs|u|uris]; cbn [step].
    - unfold did_open. assert (Hb : bytes_len t < 2 ^ 32).
      { apply (Hsm u). specialize (Ht u). inversion Ht; congruence. }
      destruct (create_some (sv_enc sv) u t Hb) as [g ->]. cbn [option_map].
      destruct (st_get (sv_files sv) u) as [f|]; [destruct (str_eqb (f_content f) t)|]; eauto.
    - unfold did_change. specialize (Ht u). destruct (is_full cs) eqn:Ef.
      + apply is_full_true in Ef as [t ->]. cbn [ch_text]. assert (Hb : bytes_len t < 2 ^ 32).
        { apply (Hsm u). inversion Ht as [|t0 cs0 t1 Hh He Heq1 Heq2 Heq3| t0 Heq1 Heq2 Heq3 | | | | | |]; subst; try congruence.
          inversion He as [|? ? t2 ? ? He1 He2]; subst. inversion He1; subst. inversion He2; subst. reflexivity. }
        destruct (create_some (sv_enc sv) u t Hb) as [g ->]. cbn [option_map]. eauto.
      + pose proof (Hs u) as Hu. unfold document in Hu. destruct (st_get (sv_files sv) u) as [f|] eqn:Eg; [|eauto]. cbn [option_map] in Hu.
        inversion Ht as [|t0 cs0 t1 Hh He Heq1 Heq2 Heq3| t0 Heq1 Heq2 Heq3 | | | | | |]; subst; try congruence.
        assert (Hft : f_content f = t0) by congruence.
        destruct (Hc u f Eg) as (Hr & Hi & _). unfold update_file. rewrite Hr, Hft in *.
        destruct Hh as [[t ->]|Hbu]; [discriminate Ef|].
        rewrite (apply_changes_ok chk (sv_enc sv) t0 (f_index f) cs t1 Hi Hbu He).
        destruct (li_new_some t1) as [i ->]; [apply (Hsm u); congruence|]. cbn [option_map]. eauto.
    - unfold did_close. eauto.
    - unfold did_delete. eauto. }
  destruct Hex as [sv' Hst]. exists sv'. split; [exact Hst|]. intros uri.
  pose proof (step_document chk sv e sv' Hst uri) as H. specialize (Ht uri). specialize (Hs uri).
  destruct e as [u t|u cs|u|uris].
  - destruct (str_eqb u uri) eqn:E.
    + apply str_eqb_eq in E. subst u. destruct H as (f & -> & Hf & _). cbn [option_map]. inversion Ht; congruence.
    + rewrite H, Hs. inversion Ht; subst; try reflexivity. rewrite str_eqb_refl in E. discriminate.
  - destruct (str_eqb u uri) eqn:E.
    + apply str_eqb_eq in E. subst u. destruct (is_full cs) eqn:Ef.
      * destruct H as (f & c & -> & -> & Hf). cbn [option_map]. apply create_consistent in Hf as [_ ->].
        inversion Ht as [|t0 cs0 t1 Hh He Heq1 Heq2 Heq3| t0 Heq1 Heq2 Heq3 | | | | | |]; subst; try congruence; [|reflexivity].
        inversion He as [|? ? t2 ? ? He1 He2]; subst. inversion He2; subst. inversion He1; subst; [discriminate Ef|reflexivity].
      * destruct (document sv uri) as [f0|] eqn:E0; cbn [option_map] in Hs.
        -- destruct H as (f & -> & Hu). cbn [option_map].
           destruct (update_consistent (sv_enc sv) uri f0 _ f (Hc uri f0 E0) Hu) as [_ Hap].
           inversion Ht as [|t0 cs0 t1 Hh He Heq1 Heq2 Heq3| t0 Heq1 Heq2 Heq3 | | | | | |]; subst; try congruence.
           assert (Hft : f_content f0 = t0) by congruence.
           destruct Hh as [[t ->]|Hbu]; [discriminate Ef|].
           destruct (Hc uri f0 E0) as (_ & Hi & _). rewrite Hft in *.
           rewrite (apply_changes_ok chk (sv_enc sv) t0 (f_index f0) cs t1 Hi Hbu He) in Hap. congruence.
        -- rewrite H. cbn [option_map]. inversion Ht; subst; try congruence. discriminate Ef.
    + rewrite H, Hs. inversion Ht; subst; try reflexivity; rewrite str_eqb_refl in E; discriminate.
  - rewrite H, Hs. inversion Ht; reflexivity.
  - rewrite H. destruct (existsb (fun u => str_eqb u uri) uris) eqn:E.
    + apply existsb_exists in E as (u & Hu & Eu). apply str_eqb_eq in Eu. subst u. inversion Ht; [reflexivity|contradiction].
    + rewrite Hs. inversion Ht; [|reflexivity]. subst. assert (E' : existsb (fun u => str_eqb u uri) uris = true).
      { apply existsb_exists. exists uri. split; [assumption|apply str_eqb_refl]. }
      congruence.
Qed.

Lemma session_ok chk enc ed es ed' : session true enc ed es ed' -> forall sv, sv_enc sv = enc ->
  all_consistent sv -> in_sync sv ed -> exists sv', run compile chk sv es = Some sv' /\ in_sync sv' ed'.
Proof.
  induction 1 as [ed|ed e ed' es ed'' Ht Hsm Hses IH]; intros sv He Hc Hs.
  - exists sv. split; [reflexivity|exact Hs].
  - subst enc. destruct (step_ok chk sv ed e ed' Hc Hs Ht Hsm) as (sv' & Hst & Hs').
    cbn [run]. rewrite Hst. apply IH; [exact (step_enc chk sv e sv' Hst)|exact (step_consistent chk sv e sv' Hc Hst)|exact Hs'].
Qed.
End Server.

(** * Token streams *)

Lemma emit_decode chk ts : forall delta, in_order delta ts ->
  exists l, emit chk delta ts = LOk l /\ decode_tokens delta l = ts.
Proof.
  induction ts as [|[s e ty m] ts IH]; intros delta H; [exists []; auto|].
  cbn [in_order tk_start tk_end] in H. destruct H as (H1 & H2 & H3 & H4). destruct (IH s H4) as (l & El & Dl).
  cbn [emit]. unfold add_span. cbn [tk_start tk_end tk_type tk_mods]. rewrite H2, N.eqb_refl. rewrite <- H2.
  assert (Hsub : forall a b, b <= a -> sub_u32 chk a b = Some (a - b)).
  { intros a b Hab. unfold sub_u32. destruct (N.leb_spec b a); [reflexivity|lia]. }
  unfold pos_le in H1.
  rewrite (Hsub (p_line s) (p_line delta)) by lia.
  rewrite (Hsub (p_char s)) by (destruct (N.eqb_spec (p_line delta) (p_line s)); lia).
  rewrite (Hsub (p_char e) (p_char s)) by lia. cbn [lbind]. rewrite El. cbn [lbind].
  eexists. split; [reflexivity|]. cbn [decode_tokens st_line st_start st_length st_type st_mods].
  replace (p_line delta + (p_line s - p_line delta)) with (p_line s) by lia.
  assert (E : (if p_line s - p_line delta =? 0 then p_char delta else 0) +
    (p_char s - (if p_line delta =? p_line s then p_char delta else 0)) = p_char s).
  { destruct (N.eqb_spec (p_line s - p_line delta) 0), (N.eqb_spec (p_line delta) (p_line s)); lia. }
  rewrite E. replace (p_char s + (p_char e - p_char s)) with (p_char e) by lia.
  replace (Pos (p_line s) (p_char s)) with s by (destruct s; reflexivity). rewrite Dl.
  rewrite H2. replace (Pos (p_line e) (p_char e)) with e by (destruct e; reflexivity). reflexivity.
Qed.

Lemma emit_order ts : forall delta l, emit true delta ts = LOk l -> in_order delta ts.
Proof.
  induction ts as [|[s e ty m] ts IH]; intros delta l H; [exact I|]. cbn [emit] in H.
  unfold add_span in H. cbn [tk_start tk_end tk_type tk_mods] in H.
  destruct (N.eqb_spec (p_line s) (p_line e)) as [E|]; [|discriminate]. unfold sub_u32 in H.
  destruct (N.leb_spec (p_line delta) (p_line s)); [|discriminate].
  destruct (N.leb_spec (if p_line delta =? p_line s then p_char delta else 0) (p_char s)) as [Hle|]; [|discriminate].
  destruct (N.leb_spec (p_char s) (p_char e)); [|discriminate]. cbn [lbind] in H.
  destruct (emit true s ts) as [l'| |] eqn:El; try discriminate.
  cbn [in_order tk_start tk_end]. split; [|split; [exact E|split; [assumption|exact (IH s l' El)]]].
  unfold pos_le. destruct (N.eqb_spec (p_line delta) (p_line s)); lia.
Qed.

Lemma bitset_aux mods : forall acc i, acc < 2 ^ i ->
  let r := fst (fold_left (fun '(acc, i) (b : bool) => ((if b then acc + N.shiftl 1 i else acc), i + 1)) mods (acc, i)) in
  forall k, N.testbit r k = if k <? i then N.testbit acc k else nth (N.to_nat (k - i)) mods false.
Proof.
  induction mods as [|b mods IH]; intros acc i Ha; cbn [fold_left fst].
  - intros k. destruct (N.ltb_spec k i) as [|Hk]; [reflexivity|].
    assert (Hn : nth (N.to_nat (k - i)) ([] : list bool) false = false) by (destruct (N.to_nat (k - i)); reflexivity).
    rewrite Hn. destruct (N.eq_dec acc 0) as [->|Hz]; [apply N.bits_0|]. apply N.bits_above_log2.
    apply N.log2_lt_pow2 in Ha; lia.
  - assert (Hp : 2 ^ (i + 1) = 2 * 2 ^ i) by (rewrite N.add_1_r, N.pow_succ_r'; reflexivity).
    assert (Hs : N.shiftl 1 i = 2 ^ i) by (rewrite N.shiftl_1_l; reflexivity).
    assert (Hacc : (if b then acc + N.shiftl 1 i else acc) < 2 ^ (i + 1)) by (destruct b; lia).
    intros k. rewrite (IH _ (i + 1) Hacc k).
    destruct (N.ltb_spec k (i + 1)) as [H1|H1], (N.ltb_spec k i) as [H2|H2]; try lia.
    + destruct b; [|reflexivity]. rewrite Hs. 
      rewrite <- (N.mod_pow2_bits_low (acc + 2 ^ i) i k) by exact H2.
      rewrite <- (N.mod_pow2_bits_low acc i k) by exact H2. f_equal.
      rewrite <- (N.mul_1_l (2 ^ i)) at 1. rewrite N.mod_add by (apply N.pow_nonzero; lia). reflexivity.
    + assert (k = i) by lia. subst k. rewrite N.sub_diag. cbn [N.to_nat nth].
      assert (Hi : N.testbit acc i = false).
      { destruct (N.eq_dec acc 0) as [->|Hz]; [apply N.bits_0|]. apply N.bits_above_log2. apply N.log2_lt_pow2 in Ha; lia. }
      destruct b; [|exact Hi]. rewrite Hs, N.testbit_odd, N.shiftr_div_pow2.
      rewrite <- (N.mul_1_l (2 ^ i)) at 1. rewrite N.div_add by (apply N.pow_nonzero; lia).
      rewrite N.div_small by exact Ha. reflexivity.
    + replace (N.to_nat (k - i)) with (S (N.to_nat (k - (i + 1)))) by lia. reflexivity.
Qed.
Lemma bitset_ok mods k : N.testbit (modifier_bitset mods) k = nth (N.to_nat k) mods false.
Proof.
  unfold modifier_bitset. rewrite (bitset_aux mods 0 0 ltac:(reflexivity) k).
  destruct (N.ltb_spec k 0); [lia|]. rewrite N.sub_0_r. reflexivity.
Qed.
