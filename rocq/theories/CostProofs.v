(** The counting parser of Cost.v returns what the parser returns. *)
From Verif Require Import Base Syntax Parser Cost.
Require Coq.Strings.String.
Import Coq.Strings.String.StringSyntax.
Local Open Scope N_scope.

Definition same {A} (c : cparser A) (p : parser A) : Prop := forall i, fst (c i) = p i.

Lemma same_free {A} (p : parser A) : same (free p) p.
Proof. intros i. reflexivity. Qed.
Lemma same_bind {A B} (c : cparser A) p (f : A -> cparser B) g : same c p -> (forall a, same (f a) (g a)) -> same (cbind c f) (pbind p g).
Proof.
  intros H K i. unfold cbind, pbind. specialize (H i). destruct (c i) as [x n]. cbn [fst] in H. rewrite <- H.
  destruct x as [a r| | | |]; try reflexivity. specialize (K a r). destruct (f a r) as [y m]. exact K.
Qed.
(** [space0 ;; q]: a prefix taken from Parser.v as one parser. *)
Lemma same_ext {A} (c : cparser A) p q : same c p -> (forall i, p i = q i) -> same c q.
Proof. intros H K i. rewrite H. apply K. Qed.
Lemma same_map {A B} (f : A -> B) c p : same c p -> same (cmap f c) (pmap f p).
Proof. intros H. apply same_bind; [exact H|]. intros a. apply same_free. Qed.
Lemma same_cut {A} (c : cparser A) p : same c p -> same (ccut c) (cut_err p).
Proof. intros H i. unfold ccut, cut_err. specialize (H i). destruct (c i) as [x n]. cbn [fst] in *. rewrite <- H. destruct x; reflexivity. Qed.
Lemma same_alt {A} (c d : cparser A) p q : same c p -> same d q -> same (calt c d) (alt p q).
Proof.
  intros H K i. unfold calt, alt. specialize (H i). specialize (K i). destruct (c i) as [x n]. cbn [fst] in *. rewrite <- H.
  destruct x; try reflexivity. destruct (d i) as [y m]. exact K.
Qed.
Lemma same_opt {A} (c : cparser A) p : same c p -> same (copt c) (opt p).
Proof. intros H i. unfold copt, opt. specialize (H i). destruct (c i) as [x n]. cbn [fst] in *. rewrite <- H. destruct x; reflexivity. Qed.
Lemma same_repeat_loop {A} (c : cparser A) p : same c p -> forall k i, fst (crepeat_loop k c i) = repeat_loop k p i.
Proof.
  intros H. induction k as [|k IH]; intros i; [reflexivity|]. cbn [crepeat_loop repeat_loop]. specialize (H i). destruct (c i) as [x n]. cbn [fst] in H.
  rewrite <- H. destruct x as [a r| | | |]; try reflexivity. destruct (length r =? length i)%nat; [reflexivity|].
  rewrite <- IH. destruct (crepeat_loop k c r) as [y m]. destruct y; reflexivity.
Qed.
Lemma same_repeat0 {A} (c : cparser A) p : same c p -> same (crepeat0 c) (repeat0 p).
Proof. intros H i. apply same_repeat_loop. exact H. Qed.
Lemma same_ws {A} (c : cparser A) p : same c p -> same (cws c) (ws p).
Proof. intros H. apply same_bind; [apply same_free|]. intros _. exact H. Qed.
Lemma same_punct_loop {A} (f : cparser A) f' (g : cparser (A * bool)) g' : same f f' -> same g g' ->
  forall k acc prev i, fst (cpunct_loop k f g acc prev i) = punct_loop k f' g' acc prev i.
Proof.
  intros Hf Hg. induction k as [|k IH]; intros acc prev i; [reflexivity|]. cbn [cpunct_loop punct_loop].
  pose proof (Hf i) as Ef. destruct (f i) as [x n]. cbn [fst] in Ef. rewrite <- Ef. destruct x as [a r| | | |]; try reflexivity.
  - destruct (length r =? length i)%nat; [reflexivity|]. rewrite <- IH. destruct (cpunct_loop k f g (acc ++ [a]) (Some i) r). reflexivity.
  - pose proof (Hg i) as Eg. destruct (g i) as [y m]. cbn [fst] in Eg. rewrite <- Eg. destruct y as [[a t] r| | | |]; try reflexivity.
    destruct prev as [s|]; [|reflexivity]. pose proof (Hg s) as Es. destruct (g s) as [z l]. cbn [fst] in Es. rewrite <- Es.
    destruct z as [[a t] r| | | |]; reflexivity.
Qed.
Lemma same_punctuated {A} (c : cparser A) p : same c p -> same (cpunctuated c) (punctuated p).
Proof.
  intros H i. apply same_punct_loop.
  - apply same_bind; [exact H|]. intros a. apply (same_bind (free (ws comma)) (ws comma)); [apply same_free|]. intros _. apply same_free.
  - apply same_bind; [exact H|]. intros a. apply same_bind; [apply same_free|]. intros t. apply same_free.
Qed.
Lemma same_surround {A} o c (p : cparser A) q : same p q -> same (csurround o c p) (surround o c q).
Proof.
  intros H. unfold csurround, surround. apply same_bind; [apply same_free|]. intros _. apply same_cut. apply same_bind; [exact H|]. intros a.
  apply same_bind; [apply same_free|]. intros _. apply same_free.
Qed.
Lemma bind_assoc {A B C} (p : parser A) (f : A -> parser B) (g : B -> parser C) i : pbind (pbind p f) g i = pbind p (fun a => pbind (f a) g) i.
Proof. unfold pbind. destruct (p i); reflexivity. Qed.

Lemma bind_cong {A B} (p : parser A) (f g : A -> parser B) i : (forall a r, f a r = g a r) -> pbind p f i = pbind p g i.
Proof. intros H. unfold pbind. destruct (p i); try reflexivity. apply H. Qed.

Lemma same_free_seq {A B C} (p : parser A) (f : A -> parser B) (c : B -> cparser C) q :
  (forall a, same (cbind (free (f a)) c) (q a)) -> same (cbind (free (pbind p f)) c) (pbind p q).
Proof. intros H i. unfold cbind, free, pbind. destruct (p i) as [a r| | | |]; try reflexivity. exact (H a r). Qed.
Ltac same_tac := repeat (first [ match goal with |- same (cbind (free (pbind _ _)) _) _ => apply same_free_seq; intros ? end | apply same_free | apply same_map | apply same_cut | apply same_alt | apply same_opt | apply same_repeat0
  | apply same_ws | apply same_punctuated | apply same_surround | assumption
  | (apply same_bind; [|intros ?]) ]).

Lemma same_single mk c p : same c p -> same (cparse_single mk c) (parse_single mk p).
Proof. intros H. unfold cparse_single, parse_single. same_tac. Qed.
Lemma same_pair c p : same c p -> same (cparse_pair c) (parse_pair p).
Proof.
  intros H. unfold cparse_pair, parse_pair. apply same_cut, same_surround. apply same_bind; [exact H|]. intros k.
  apply (same_ext _ (pbind (space0 ;; comma ;; space0) (fun _ => pdo v <- p; pret (PHashMap k v)))); [apply same_bind; [apply same_free|intros u; apply same_bind; [exact H|intros v; apply same_free]]|].
  intros i. rewrite bind_assoc. apply bind_cong. intros ? r. apply bind_assoc.
Qed.
Lemma same_generic c p : same c p -> same (cparse_generic c) (parse_generic p).
Proof.
  intros H. unfold cparse_generic, parse_generic. apply same_bind; [apply same_free|]. intros k.
  destruct (str_eqb k (tx "vec")); [apply same_single; exact H|]. destruct (str_eqb k (tx "hash_map")); [apply same_pair; exact H|].
  destruct (str_eqb k (tx "hash_set")); [apply same_single; exact H|]. destruct (str_eqb k (tx "option")); [apply same_single; exact H|].
  destruct (str_eqb k (tx "non_zero")); [apply same_single; exact H|]. apply same_free.
Qed.
Lemma same_type : forall n, same (cparse_type n) (parse_type n).
Proof.
  induction n as [|n IH]; intros i; [reflexivity|]. cbn [cparse_type parse_type].
  match goal with |- fst (let (x, m) := ?c i in _) = ?p i => assert (H : same c p) end.
  { apply same_alt; [apply same_free|]. apply same_alt; [apply same_generic; exact IH|]. apply same_alt; [unfold cparse_tuple, parse_tuple; same_tac|].
    apply same_alt; [unfold cparse_array, parse_array; same_tac|]. unfold cparse_external, parse_external. same_tac. }
  specialize (H i). match goal with |- fst (let (x, m) := ?c i in _) = _ => destruct (c i) as [x m] end. exact H.
Qed.
Lemma same_ptype : same cptype ptype.
Proof. intros i. apply same_type. Qed.
Ltac assoc_tac := repeat (rewrite bind_assoc; apply bind_cong; intros ? ?); try reflexivity.

Lemma same_unnamed : same cparse_unnamed_field parse_unnamed_field.
Proof. unfold cparse_unnamed_field, parse_unnamed_field. pose proof same_ptype. same_tac. Qed.
Lemma same_named : same cparse_named_field parse_named_field.
Proof.
  pose proof same_ptype as HT. unfold cparse_named_field. unfold parse_named_field. same_tac.
Qed.
Lemma same_fields : same cparse_fields parse_fields.
Proof.
  pose proof same_named as H1. pose proof same_unnamed as H2. unfold cparse_fields, parse_fields. apply same_bind; [apply same_free|]. intros c.
  destruct (c =? 123); [same_tac|]. destruct (c =? 40); same_tac.
Qed.
Lemma same_variant : same cparse_variant parse_variant.
Proof.
  pose proof same_fields as H. unfold cparse_variant. unfold parse_variant. same_tac.
Qed.
Section Lit.
Context {F : Type}.
Variable pf : str -> option F.
Lemma same_struct : same (cparse_struct (F := F)) parse_struct.
Proof.
  pose proof same_fields as H. unfold cparse_struct. unfold parse_struct. same_tac.
Qed.
Lemma same_enum : same (cparse_enum (F := F)) parse_enum.
Proof.
  pose proof same_variant as H. unfold cparse_enum. unfold parse_enum. same_tac.
Qed.
Lemma cut_cong {A} (p q : parser A) i : (forall j, p j = q j) -> cut_err p i = cut_err q i.
Proof. intros H. unfold cut_err. rewrite H. reflexivity. Qed.
Lemma same_alias : same (cparse_alias (F := F)) parse_alias.
Proof.
  pose proof same_ptype as H. unfold cparse_alias. unfold parse_alias. same_tac.
Qed.
Lemma same_const : same (cparse_const pf) (parse_const pf).
Proof.
  pose proof same_ptype as H. unfold cparse_const. unfold parse_const. same_tac.
Qed.
Lemma same_module c p : same c p -> same (cparse_module (F := F) c) (parse_module p).
Proof.
  intros H. unfold cparse_module. unfold parse_module. same_tac.
Qed.
Lemma same_definition : forall n, same (cparse_definition pf n) (parse_definition pf n).
Proof.
  induction n as [|n IH]; intros i; [reflexivity|]. cbn [cparse_definition parse_definition]. revert i.
  match goal with |- forall i, fst (?c i) = ?p i => change (same c p) end.
  apply same_bind; [apply same_free|]. intros c. apply same_bind; [apply same_free|]. intros a. apply same_bind; [apply same_free|]. intros _.
  apply same_bind; [|intros d; apply same_free]. apply same_bind; [apply same_free|]. intros k.
  destruct (k =? 109); [apply same_module; exact IH|]. destruct (k =? 115); [apply same_struct|]. destruct (k =? 101); [apply same_enum|].
  destruct (k =? 99); [apply same_const|]. destruct (k =? 116); [apply same_alias|]. destruct (k =? 117); apply same_free.
Qed.
Lemma same_schema : same (cparse_schema pf) (parse_schema pf).
Proof.
  unfold cparse_schema, parse_schema. apply same_bind; [apply same_free|]. intros c. apply same_bind.
  - apply same_repeat0. intros i. apply same_definition.
  - intros ds. apply same_bind; [apply same_free|]. intros _. apply same_free.
Qed.
End Lit.
