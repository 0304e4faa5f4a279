(** C60: parsing a schema takes time in proportion to its length.

    Refuted.  The list parser ([punctuate], parser.rs L219-270) parses the last element of every list twice, so the
    innermost type of n nested tuples is parsed more than 2^n times.  Time is measured from below, by the number of calls
    of one function (Cost.v). *)
From Verif Require Import Base Syntax Parser Cost CostProofs.
Require Coq.Strings.String.
Import Coq.Strings.String.StringSyntax.
Local Open Scope N_scope.

(** The counted parser is the parser. *)
Theorem C60_counting_is_harmless : forall (F : Type) (parse_f64 : str -> option F) i,
  fst (cparse_schema parse_f64 i) = parse_schema parse_f64 i.
Proof. intros F pf i. apply same_schema. Qed.
Print Assumptions C60_counting_is_harmless.

(** n nested tuples, the text and the type. *)
Fixpoint nest (n : nat) : str := match n with O => tx "u8" | S m => tx "(" ++ nest m ++ tx ")" end.
Fixpoint nest_ty (n : nat) : pty := match n with O => PPrim PrU8 | S m => PTuple (Punct [] (nest_ty m) false) end.
(** struct A(((((u8))))) *)
Definition nest_schema (n : nat) : str := tx "struct A(" ++ nest n ++ tx ")".

Lemma nest_length n : length (nest n) = (2 * n + 2)%nat.
Proof. induction n as [|n IH]; [reflexivity|]. cbn [nest]. rewrite !app_length, IH. cbn. lia. Qed.
Lemma nest_head n r : (exists c s, nest n ++ r = c :: s /\ is_mspace c = false).
Proof. destruct n; cbn; eexists; eexists; (split; [reflexivity|reflexivity]). Qed.
Lemma ms_nest n r : multispace0 (nest n ++ r) = POk tt (nest n ++ r).
Proof. destruct (nest_head n r) as (c & s & E & H). rewrite E. unfold multispace0, pmap, pbind, take_while. cbn [span]. rewrite H. reflexivity. Qed.

Definition calls_nest (n : nat) : N := 2 ^ (N.of_nat n + 1) - 1.
Lemma calls_nest_S n : calls_nest (S n) = 1 + 2 * calls_nest n.
Proof.
  unfold calls_nest. replace (N.of_nat (S n) + 1) with (N.succ (N.of_nat n + 1)) by lia. rewrite N.pow_succ_r'.
  pose proof (N.pow_nonzero 2 (N.of_nat n + 1) ltac:(lia)). lia.
Qed.

(** A list with one element and no comma: the element is parsed twice. *)
Lemma twice {A} (e : cparser A) i a r n : e i = (POk a (41 :: r), n) ->
  cpunctuated e i = (POk (Punct [] a false) (41 :: r), n + n).
Proof.
  intros H. unfold cpunctuated. cbn [cpunct_loop]. unfold cbind at 1. rewrite H. cbn [free ws comma char].
  unfold cbind at 1. unfold free at 1. replace (ws comma (41 :: r)) with (@PBack unit) by reflexivity. cbn [cbind].
  unfold cbind at 1. rewrite H. unfold cbind at 1. unfold free at 1. replace (opt (ws comma) (41 :: r)) with (POk (@None unit) (41 :: r)) by reflexivity.
  unfold cret, free, pret. f_equal. lia.
Qed.

Lemma type_calls : forall n k r, (n < k)%nat -> cparse_type k (nest n ++ 41 :: r) = (POk (nest_ty n) (41 :: r), calls_nest n).
Proof.
  induction n as [|n IH]; intros k r Hk; (destruct k as [|k]; [lia|]).
  - reflexivity.
  - cbn [cparse_type].
    assert (E : cparse_tuple (cparse_type k) (nest (S n) ++ 41 :: r) = (POk (nest_ty (S n)) (41 :: r), calls_nest n + calls_nest n)).
    { replace (nest (S n) ++ 41 :: r) with (40 :: (nest n ++ 41 :: 41 :: r)) by (cbn [nest]; rewrite <- !app_assoc; reflexivity).
      unfold cparse_tuple, cmap, csurround, cbind at 1 2, free at 1. cbn [char]. rewrite N.eqb_refl. unfold ccut, cbind at 1.
      rewrite (twice (cws (cparse_type k)) _ (nest_ty n) (41 :: r) (calls_nest n)).
      - unfold cbind at 1, free at 1. replace (ws (char 41) (41 :: 41 :: r)) with (POk tt (41 :: r)) by reflexivity. unfold cret, free, pret. f_equal. lia.
      - unfold cws, cbind, free. rewrite ms_nest. rewrite (IH k (41 :: r)) by lia. f_equal. }
    unfold calt at 1, free at 1. replace (parse_basic (nest (S n) ++ 41 :: r)) with (@PBack pty) by reflexivity.
    unfold calt at 1. replace (cparse_generic (cparse_type k) (nest (S n) ++ 41 :: r)) with (@PBack pty, 0) by reflexivity.
    unfold calt at 1. rewrite E. rewrite calls_nest_S. f_equal. lia.
Qed.

Theorem C60_time_refuted : forall (F : Type) (parse_f64 : str -> option F) n,
  length (nest_schema n) = (2 * n + 12)%nat /\
  schema_parse parse_f64 (nest_schema n) = Some (PSchema [] [PStruct [] [] (tx "A") None (FUnnamed (Punct [] (UField (nest_ty n) None) false))]) /\
  schema_calls parse_f64 (nest_schema n) = 2 * (2 ^ (N.of_nat n + 1) - 1).
Proof.
  intros F pf n. split; [unfold nest_schema; rewrite !app_length, nest_length; cbn; lia|].
  assert (E : cparse_schema pf (nest_schema n) = (POk (PSchema [] [PStruct [] [] (tx "A") None (FUnnamed (Punct [] (UField (nest_ty n) None) false))]) [], 2 * calls_nest n)).
  { assert (Ef : cparse_fields (40 :: (nest n ++ [41])) = (POk (FUnnamed (Punct [] (UField (nest_ty n) None) false)) [], 2 * calls_nest n)).
    { unfold cparse_fields, cbind at 1, free at 1. cbn [peek_any]. cbn [N.eqb Pos.eqb]. unfold cmap, csurround, cbind at 1 2, free at 1. cbn [char]. rewrite N.eqb_refl.
      unfold ccut, cbind at 1. rewrite (twice cparse_unnamed_field _ (UField (nest_ty n) None) [] (calls_nest n)).
      - unfold cbind at 1, free at 1. replace (ws (char 41) [41]) with (POk tt []) by reflexivity. unfold cret, free, pret. f_equal. lia.
      - unfold cparse_unnamed_field, cws, cbind, free. rewrite ms_nest. unfold cptype. rewrite (type_calls n (S (length (nest n ++ [41])))) by (rewrite app_length, nest_length; lia).
        replace (opt (space0;; parse_id) [41]) with (POk (@None N) [41]) by reflexivity. unfold cret, free, pret. f_equal. lia. }
    assert (Es : cparse_struct (F := F) (nest_schema n) = (POk (PStruct [] [] (tx "A") None (FUnnamed (Punct [] (UField (nest_ty n) None) false))) [], 2 * calls_nest n)).
    { replace (nest_schema n) with (tx "struct A" ++ 40 :: (nest n ++ [41])) by (unfold nest_schema; cbn [app]; rewrite <- ?app_assoc; reflexivity).
      unfold cparse_struct. unfold cbind at 1, free at 1. replace ((tag (tx "struct");; space1) (tx "struct A" ++ 40 :: nest n ++ [41])) with (POk tt (65 :: 40 :: nest n ++ [41])) by reflexivity.
      unfold ccut, cbind at 1, free at 1. replace (type_name (65 :: 40 :: nest n ++ [41])) with (POk [65] (40 :: nest n ++ [41])) by reflexivity.
      unfold cbind at 1, free at 1. replace (opt parse_generics (40 :: nest n ++ [41])) with (POk (@None generics) (40 :: nest n ++ [41])) by reflexivity.
      unfold cbind at 1, free at 1. replace (space0 (40 :: nest n ++ [41])) with (POk tt (40 :: nest n ++ [41])) by reflexivity.
      unfold cbind at 1. rewrite Ef. unfold cret, free, pret. f_equal. lia. }
    assert (Ed : cpdefinition pf (nest_schema n) = (POk (PStruct [] [] (tx "A") None (FUnnamed (Punct [] (UField (nest_ty n) None) false))) [], 2 * calls_nest n)).
    { unfold cpdefinition. cbn [cparse_definition].
      assert (E1 : ws comments (nest_schema n) = POk [] (nest_schema n)) by reflexivity.
      assert (E2 : ws (attributes pf) (nest_schema n) = POk [] (nest_schema n)) by reflexivity.
      assert (E3 : space0 (nest_schema n) = POk tt (nest_schema n)) by reflexivity.
      assert (E4 : peek_any (nest_schema n) = POk 115 (nest_schema n)) by reflexivity.
      unfold cbind at 1, free at 1. rewrite E1. unfold cbind at 1, free at 1. rewrite E2. unfold cbind at 1, free at 1. rewrite E3.
      unfold cbind at 1. unfold cbind at 1, free at 1. rewrite E4. cbn [N.eqb Pos.eqb]. rewrite Es. unfold cret, free, pret. cbn [with_attributes with_comment]. f_equal. lia. }
    unfold cparse_schema, cbind at 1, free at 1. replace (opt (pdo c <- ws comments; char 10;; pret c) (nest_schema n)) with (POk (@None comment) (nest_schema n)) by reflexivity.
    unfold cbind at 1. unfold crepeat0. replace (length (nest_schema n)) with (S (2 * n + 11))%nat by (unfold nest_schema; rewrite !app_length, nest_length; cbn; lia).
    cbn [crepeat_loop]. rewrite Ed. replace (length (nest_schema n)) with (S (2 * n + 11))%nat by (unfold nest_schema; rewrite !app_length, nest_length; cbn; lia).
    cbn [length Nat.eqb]. replace (cpdefinition pf []) with (@PBack (pdef F), 0) by reflexivity.
    unfold cbind, free. replace (multispace0 []) with (POk tt (@nil N)) by reflexivity. unfold cret, free, pret. f_equal. lia. }
  split.
  - unfold schema_parse. rewrite <- (C60_counting_is_harmless F pf). rewrite E. reflexivity.
  - unfold schema_calls. rewrite E. reflexivity.
Qed.
Print Assumptions C60_time_refuted.

(** No polynomial bounds the work: stated for every factor and degree. *)
Lemma pow2_gt m : m + 1 <= 2 ^ m.
Proof. induction m as [|m IH] using N.peano_ind; [cbn; lia|]. rewrite N.pow_succ_r'. lia. Qed.
Theorem C60_no_polynomial_refuted : forall (F : Type) (parse_f64 : str -> option F) (factor degree : N),
  exists i s, schema_parse parse_f64 i = Some s /\ factor * N.of_nat (length i) ^ degree < schema_calls parse_f64 i.
Proof.
  intros F pf a d. set (m := d + a + 6). set (k := 3 * m). set (n := N.to_nat (2 ^ k - 6)).
  destruct (C60_time_refuted F pf n) as (H1 & H2 & H3). exists (nest_schema n). eexists. split; [exact H2|]. rewrite H1, H3.
  assert (Hk : m * (k + 1) <= 2 ^ k).
  { unfold k. replace (3 * m) with (m + m + m) by lia. rewrite !N.pow_add_r. pose proof (pow2_gt m) as P.
    apply N.le_trans with ((m + 1) * (m + 1) * (m + 1)); [|apply N.mul_le_mono; [apply N.mul_le_mono; exact P|exact P]]. nia. }
  assert (H6 : 6 <= 2 ^ k) by (unfold m in Hk; nia).
  replace (N.of_nat (2 * n + 12)) with (2 ^ (k + 1)) by (rewrite N.pow_add_r; unfold n; lia).
  rewrite <- N.pow_mul_r. pose proof (pow2_gt a) as Pa.
  apply N.le_lt_trans with (2 ^ a * 2 ^ ((k + 1) * d)); [apply N.mul_le_mono_r; lia|]. rewrite <- N.pow_add_r.
  apply N.le_lt_trans with (2 ^ N.of_nat n); [apply N.pow_le_mono_r; [lia|]; unfold n; rewrite N2Nat.id; unfold m in Hk; nia|].
  replace (N.of_nat n + 1) with (N.succ (N.of_nat n)) by lia. rewrite N.pow_succ_r'. pose proof (N.pow_nonzero 2 (N.of_nat n) ltac:(lia)). lia.
Qed.
Print Assumptions C60_no_polynomial_refuted.

(** For comparison: 20 nested tuples in 52 characters. *)
Example C60_ex : length (nest_schema 20) = 52%nat /\ schema_calls (F := unit) (fun _ => None) (nest_schema 20) = 4194302.
Proof. destruct (C60_time_refuted unit (fun _ => None) 20) as (H1 & _ & H3). split; [exact H1|]. rewrite H3. reflexivity. Qed.
