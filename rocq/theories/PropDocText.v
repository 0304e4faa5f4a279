(** Property theorem C83: the definition shown on a documentation page. *)
From Verif Require Import Base Syntax Parser Printer ParserSpec ParserTotal PropParser Compiler GenProofs DocText DocTextProofs.
Require Coq.Strings.String.
Import Coq.Strings.String.StringSyntax.
Local Open Scope N_scope.

(** The text shown for any struct, enum, alias or constant of any schema, wherever it is nested,
    followed by a line break, is itself a schema; compiling it gives exactly the documented
    definition: same name, type parameters, fields or variants in the same order with the same
    types, names and ids, same value; only the comments are gone.  Assumed of a constant: a float
    prints with a fractional part and is read back, a string has no NUL.  Missing for the full
    claim: the refutations below. *)
Theorem C83_shown_is_definition_partial : forall (F : Type) (parse_f64 : str -> option F) (fmt_f64 : F -> str) (esc_u : N -> bool) (chk : bool)
    (src : str) (s : pschema F) (doc : comment) (defs : list (sdef F)) (d : sdef F) (t : str),
  text src -> schema_parse parse_f64 src = Some s -> simplify_schema chk s = Some (doc, defs) ->
  Within d defs -> shown_text fmt_f64 esc_u d = Some t ->
  (forall c n ty v, d = SConst c n ty v -> Reprintable fmt_f64 parse_f64 v) ->
  exists s', schema_parse parse_f64 (t ++ [10]) = Some s' /\ simplify_schema chk s' = Some ([], [bare d]).
Proof.
  intros F pf ff eu chk src s doc defs d t Ht Hp Hs Hw Hd Hl.
  pose proof (schema_parse_ok pf src s Ht Hp) as [_ Hok].
  unfold simplify_schema in Hs. destruct (all_opt (simplify_definition chk) (ps_defs s)) as [ds|] eqn:E; [|discriminate].
  cbn [option_map] in Hs. injection Hs as _ ->. apply all_opt_some in E.
  destruct (within_def chk _ _ Hok E d Hw) as (e & He & Hed).
  eapply shown_def; try eassumption. destruct d; cbn [own_lit]; try constructor; [|constructor]. eapply Hl. reflexivity.
Qed.
Print Assumptions C83_shown_is_definition_partial.

(** Every page that has such a text has it: only modules (and imports, which have no page) do not. *)
Theorem C83_every_item : forall (F : Type) (fmt_f64 : F -> str) (esc_u : N -> bool) (d : sdef F),
  shown_text fmt_f64 esc_u d = None <-> (exists c n ds, d = SModule c n ds) \/ (exists l e, d = SImport l e).
Proof.
  intros F ff eu d. split.
  - destruct d; cbn [shown_text]; intros H; try discriminate H; [left; eauto|right; eauto].
  - intros [(c & n & ds & ->)|(l & e & ->)]; reflexivity.
Qed.
Print Assumptions C83_every_item.

(** Two definitions that differ in more than their comments are shown differently. *)
Theorem C83_shown_apart : forall (F : Type) (parse_f64 : str -> option F) (fmt_f64 : F -> str) (esc_u : N -> bool) (chk : bool)
    (src : str) (s : pschema F) (doc : comment) (defs : list (sdef F)) (d d' : sdef F) (t : str),
  text src -> schema_parse parse_f64 src = Some s -> simplify_schema chk s = Some (doc, defs) ->
  Within d defs -> Within d' defs -> shown_text fmt_f64 esc_u d = Some t -> shown_text fmt_f64 esc_u d' = Some t ->
  (forall c n ty v, d = SConst c n ty v \/ d' = SConst c n ty v -> Reprintable fmt_f64 parse_f64 v) ->
  bare d = bare d'.
Proof.
  intros F pf ff eu chk src s doc defs d d' t Ht Hp Hs Hw Hw' Hd Hd' Hl.
  destruct (C83_shown_is_definition_partial F pf ff eu chk src s doc defs d t Ht Hp Hs Hw Hd) as (s1 & H1 & H2); [eauto|].
  destruct (C83_shown_is_definition_partial F pf ff eu chk src s doc defs d' t Ht Hp Hs Hw' Hd') as (s2 & H3 & H4); [eauto|].
  rewrite H1 in H3. injection H3 as <-. rewrite H2 in H4. injection H4 as H4. exact H4.
Qed.
Print Assumptions C83_shown_apart.

Definition C83_src : str := tx "mod a {
/// A shape.
enum Shape<T> {
  /// Nothing.
  Empty,
  Circle(f64, T,) @4,
  Rect { w: vec<(u8, T,)>, /// Height.
    h: [u32; 3] @7 },
}
const LIMIT: &string = ""a\""b\u{e9}"";
}
struct Unit".
Definition C83_show (s : str) : list (option str) :=
  match schema_parse (F := unit) (fun _ => None) s with
  | Some p => match simplify_schema true p with
              | Some (_, SModule _ _ ds :: ds') => map (shown_text (fun _ => []) (fun _ => false)) (ds ++ ds')
              | Some (_, ds) => map (shown_text (fun _ => []) (fun _ => false)) ds
              | None => []
              end
  | None => []
  end.
Example C83_ex : C83_show (C83_src ++ [10]) = [
  Some (tx "enum Shape<T> {
    Empty @1,
    Circle(f64 @1, T @2) @4,
    Rect {
        w: vec<(u8, T)> @1,
        h: [u32; 3] @7,
    } @5,
}");
  Some (tx "const LIMIT: &string = ""a\""b" ++ [233] ++ tx """;");
  Some (tx "struct Unit")].
Proof. vm_compute. reflexivity. Qed.
(** The hypotheses of the theorem hold for each of the three. *)
Example C83_ex_meets : exists s doc defs, text (C83_src ++ [10]) /\ schema_parse (F := unit) (fun _ => None) (C83_src ++ [10]) = Some s
  /\ simplify_schema true s = Some (doc, defs)
  /\ (exists d, Within d defs /\ shown_text (fun _ => []) (fun _ => false) d = nth 0 (C83_show (C83_src ++ [10])) None)
  /\ (exists c v, Within (SConst c (tx "LIMIT") (SPrim PrStringRef) v) defs /\ Reprintable (fun _ => []) (fun _ => None) v).
Proof.
  eexists _, _, _. split; [|split; [vm_compute; reflexivity|split; [vm_compute; reflexivity|split]]].
  - apply Forall_app. split; [apply tx_text; vm_compute; reflexivity|]. constructor; [|constructor]. left. reflexivity.
  - eexists. split; [eapply inner; [left; reflexivity|apply here; left; reflexivity]|]. vm_compute. reflexivity.
  - eexists _, _. split; [eapply inner; [left; reflexivity|apply here; right; left; reflexivity]|].
    cbn. intros H. repeat (destruct H as [H|H]; [discriminate H|]). exact H.
Qed.

(** Refuted without the line break: the text of a struct without fields is not accepted as the
    whole content of a file, while with the line break it is. *)
Theorem C83_unit_struct_refuted : forall (F : Type) (parse_f64 : str -> option F) (fmt_f64 : F -> str) (esc_u : N -> bool),
  let i := tx "struct A
" in
  schema_parse parse_f64 i = Some (PSchema [] [PStruct [] [] (tx "A") None FUnit])
  /\ simplify_schema (F := F) true (PSchema [] [PStruct [] [] (tx "A") None FUnit]) = Some ([], [SStruct [] (tx "A") [] (SFields SKUnit [])])
  /\ shown_text fmt_f64 esc_u (SStruct [] (tx "A") [] (SFields SKUnit [])) = Some (tx "struct A")
  /\ schema_parse parse_f64 (tx "struct A") = None.
Proof. intros F pf ff eu i. repeat split; vm_compute; reflexivity. Qed.
Print Assumptions C83_unit_struct_refuted.

(** Refuted for floats: [1.0] is shown as [1], which is an integer. *)
Theorem C83_float_refuted : forall (F : Type) (parse_f64 : str -> option F) (fmt_f64 : F -> str) (esc_u : N -> bool) (one : F),
  fmt_f64 one = tx "1" ->
  exists t, shown_text fmt_f64 esc_u (SConst [] (tx "X") (SPrim PrF64) (LFloat one)) = Some t
  /\ schema_parse parse_f64 (t ++ [10]) = Some (PSchema [] [PConst [] (tx "X") (PPrim PrF64) (LInt 1)]).
Proof.
  intros F pf ff eu one H. eexists. split; [reflexivity|]. cbn [pr_literal]. rewrite H. vm_compute. reflexivity.
Qed.
Print Assumptions C83_float_refuted.

(** Refuted for strings with a NUL: what is shown is not accepted. *)
Theorem C83_nul_refuted : forall (F : Type) (parse_f64 : str -> option F) (fmt_f64 : F -> str) (esc_u : N -> bool),
  exists t, shown_text fmt_f64 esc_u (SConst [] (tx "X") (SPrim PrString) (LString [0])) = Some t
  /\ schema_parse parse_f64 (t ++ [10]) = None.
Proof. intros F pf ff eu. eexists. split; [reflexivity|]. vm_compute. reflexivity. Qed.
Print Assumptions C83_nul_refuted.

(** The comment shown with a field or definition has every line, in order; the one in listings is
    the part up to the first blank line. *)
Theorem C83_comment : forall (blank : str -> bool) (c : list str),
  exists rest, merge_comments c = first_comment blank c ++ rest
  /\ exists k, first_comment blank c = merge_comments (firstn k c)
     /\ Forall (fun l => blank l = false) (firstn k c)
     /\ (forall l, nth_error c k = Some l -> blank l = true) /\ (k <= length c)%nat.
Proof.
  intros blank c. induction c as [|l c IH].
  - exists []. split; [reflexivity|]. exists 0%nat. repeat split; [constructor|discriminate|constructor].
  - destruct IH as (rest & E1 & k & E2 & H1 & H2 & H3). cbn [first_comment]. destruct (blank l) eqn:Eb.
    + exists (merge_comments (l :: c)). split; [reflexivity|]. exists 0%nat. cbn [firstn nth_error]. repeat split; [constructor| |apply Nat.le_0_l].
      intros x E. injection E as <-. exact Eb.
    + exists rest. split.
      * unfold merge_comments in *. cbn [map concat]. rewrite E1, <- !app_assoc. reflexivity.
      * exists (S k). cbn [firstn nth_error length]. repeat split.
        -- rewrite E2. unfold merge_comments. cbn [map concat]. rewrite <- app_assoc. reflexivity.
        -- constructor; assumption.
        -- exact H2.
        -- apply le_n_S, H3.
Qed.
Print Assumptions C83_comment.
Example C83_comment_ex : let blank := forallb (N.eqb 32) in
  first_comment blank [tx "One."; tx "Two."; tx " "; tx "More."] = tx "One.
Two.
" /\ merge_comments [tx "One."; tx "Two."; tx " "; tx "More."] = tx "One.
Two.
 
More.
".
Proof. split; reflexivity. Qed.
