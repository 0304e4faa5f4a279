(** Property theorems C37 to C40, C47, C51 and C52: the schema parser and printer. *)
From Verif Require Import Base Syntax Parser Printer ParserSpec ParserTotal ParserRound ParserRound2 ParserRound3.
Require Import ZifyN ZifyBool.
Require Coq.Strings.String.
Import Coq.Strings.String.StringSyntax.
Local Open Scope N_scope.

Section Defs.
Context {F : Type}.
(** [f64::from_str], [Display for f64] and the characters [Debug for str] escapes: any. *)
Variable parse_f64 : str -> option F.
Variable fmt_f64 : F -> str.
Variable esc_u : N -> bool.

(** A text with a single definition. *)
Lemma one_def d : DefOk d -> Forall (Reprintable fmt_f64 parse_f64) (def_lits d) ->
  schema_parse parse_f64 (pr_def fmt_f64 esc_u 0 d) = Some (PSchema [] [d]).
Proof.
  intros Hok Hg.
  assert (E : pr_def fmt_f64 esc_u 0 d = [] ++ pr_def fmt_f64 esc_u 0 d ++ []) by (rewrite app_nil_r; reflexivity).
  unfold schema_parse, parse_schema.
  rewrite (bind_ok _ _ _ None (pr_def fmt_f64 esc_u 0 d)).
  - rewrite (bind_ok _ _ _ [d] (def_end d)).
    + rewrite <- (app_nil_r (def_end d)). rewrite (bind_ok _ _ _ tt []); [reflexivity|].
      unfold multispace0. apply (map_ok (fun _ => tt) _ _ (def_end d)). apply take_ok; [apply def_end_sp|exact I|lia].
    + apply repeat_chain. apply chain_cons with (r := def_end d).
      * rewrite E. rewrite <- (app_nil_r (def_end d)). apply pdefinition_print; [exact Hok|exact Hg|reflexivity].
      * rewrite def_split, !app_length. assert (0 < length (def_body fmt_f64 esc_u 0 d))%nat by (destruct d; cbn; lia). lia.
      * constructor. unfold pdefinition. rewrite <- (app_nil_r (def_end d)) at 2. apply definition_stop; [apply def_end_sp|exact I].
  - apply opt_back. destruct (def_header parse_f64 fmt_f64 esc_u 0 d [] [] Hok Hg eq_refl) as (T & w & _ & H1 & _ & H2).
    rewrite <- E in H1. rewrite (bind_ok _ _ _ _ _ H1). apply bind_back. destruct T as [|x T]; [reflexivity|]. apply char_miss. unfold hn in H2. lia.
Qed.
Lemma one_def_iff d : text (pr_def fmt_f64 esc_u 0 d) -> Forall (Reprintable fmt_f64 parse_f64) (def_lits d) ->
  schema_parse parse_f64 (pr_def fmt_f64 esc_u 0 d) = Some (PSchema [] [d]) <-> DefOk d.
Proof.
  intros Ht Hg. split; [|intros H; apply one_def; assumption].
  intros H. apply schema_parse_ok in H as [_ H]; [|exact Ht]. inversion H; assumption.
Qed.
End Defs.
Lemma tx_text s : forallb (fun c => c <? 256) (tx s) = true -> text (tx s).
Proof. intros H. rewrite forallb_forall in H. apply Forall_forall. intros c Hc. specialize (H c Hc). unfold scalar. lia. Qed.
Ltac txt := repeat (apply text_app; split); try assumption; try (apply tx_text; reflexivity); try (repeat constructor; unfold scalar; lia).

Lemma lower_check s : match s with c :: r => is_lower c && forallb lower_tail r | [] => false end = true -> LowerName s.
Proof.
  destruct s as [|c r]; [discriminate|]. intros H. apply andb_true_iff in H as [Hc Hr]. exists c, r. split; [reflexivity|].
  split; [clsg|]. rewrite forallb_forall in Hr. apply Forall_forall. intros x Hx. specialize (Hr x Hx). clsg.
Qed.

(** * C37: types *)

(** Used as the type of an alias, a type's printed form is read back as that type exactly when
    its names and sizes are proper and no reference in it starts with a path segment that the
    parser mistakes for a built-in type. *)
Theorem C37_type_round_trip : forall (F : Type) (parse_f64 : str -> option F) (t : pty),
  text (pr_type t) ->
  schema_parse parse_f64 (tx "type A = " ++ pr_type t ++ tx ";") = Some (PSchema [] [PAlias [] (tx "A") None t])
  <-> TypeOk t /\ NoShadow t.
Proof.
  intros F pf t Ht.
  pose proof (one_def_iff pf (fun _ => []) (fun _ => true) (PAlias [] (tx "A") None t)) as H.
  assert (E : pr_def (fun _ : F => []) (fun _ => true) 0 (PAlias [] (tx "A") None t) = tx "type A = " ++ pr_type t ++ tx ";") by reflexivity.
  rewrite E in H. rewrite H; [|txt|constructor]. cbn [DefOk GenericsOk]. split; [tauto|].
  intros [H1 H2]. repeat split; try assumption; try constructor. exists 65, []. repeat split; [unfold upper; lia..|constructor].
Qed.
Print Assumptions C37_type_round_trip.

(** [vec<hash_map<string, [(u8, my::Type<bool>); 3]>>]. *)
Example C37_ex :
  let t := PVec (PHashMap (PPrim PrString) (PArray (PTuple (Punct [PPrim PrU8] (PExternal [w "my"] (w "Type") (Some (Punct [] (PPrim PrBool) false))) false)) 3)) in
  pr_type t = tx "vec<hash_map<string, [(u8, my::Type<bool>); 3]>>" /\ TypeOk t /\ NoShadow t
  /\ schema_parse (F := unit) (fun _ => None) (tx "type A = " ++ pr_type t ++ tx ";") = Some (PSchema [] [PAlias [] (tx "A") None t]).
Proof.
  cbv zeta. split; [reflexivity|]. split.
  - cbn [TypeOk fold_right]. repeat split; try lia.
    + constructor; [|constructor]. exists 109, [121]. repeat split; [unfold lower; lia..|]. constructor; [left; unfold lower; lia|constructor].
    + exists 84, [121; 112; 101]. repeat split; [unfold upper; lia..|]. repeat (constructor; [right; left; unfold lower; lia|]). constructor.
  - split; [|vm_compute; reflexivity]. cbn [NoShadow fold_right]. repeat split.
    intros (wd & r & E & [[Hin _]|[Hin _]]); cbn in Hin; repeat (destruct Hin as [<-|Hin]; [discriminate E|]); destruct Hin.
Qed.

(** The condition is not vacuous: modules may be called [string_utils], [u8_ops] or [vec2], and
    a reference to a type in them is not accepted. *)
Theorem C37_shadowed_refuted : forall (F : Type) (parse_f64 : str -> option F),
  ~ (forall t, text (pr_type t) -> TypeOk t ->
     schema_parse parse_f64 (tx "type A = " ++ pr_type t ++ tx ";") = Some (PSchema [] [PAlias [] (tx "A") None t])).
Proof.
  intros F pf H. specialize (H (PExternal [tx "string_utils"] (tx "B") None)).
  assert (HT : text (pr_type (PExternal [tx "string_utils"] (tx "B") None))) by (repeat (constructor; [unfold scalar; cbn; lia|]); constructor).
  assert (HO : TypeOk (PExternal [tx "string_utils"] (tx "B") None)).
  { cbn [TypeOk]. split; [constructor; [|constructor]|split; [|exact I]].
    - apply lower_check. reflexivity.
    - exists 66, []. repeat split; [unfold upper; lia..|constructor]. }
  specialize (H HT HO). discriminate H.
Qed.
Print Assumptions C37_shadowed_refuted.
Example C37_shadowed_ex : map (fun s => schema_parse (F := unit) (fun _ => None) s)
  [tx "type A = string_utils::B;"; tx "type A = u8_ops::B;"; tx "type A = vec2::B;"; tx "type A = option::B;"]
  = [None; None; None; None].
Proof. vm_compute. reflexivity. Qed.

(** * C38: `mabo fmt` *)
Section Fmt.
Context {F : Type}.
Variable parse_f64 : str -> option F.
Variable fmt_f64 : F -> str.
Variable esc_u : N -> bool.
Local Notation parse := (schema_parse parse_f64).
Local Notation fmt := (format_file fmt_f64 esc_u parse_f64).
Local Notation readable s := (Forall (Reprintable fmt_f64 parse_f64) (schema_lits s)).

Lemma fmt_keeps i s : text i -> parse i = Some s -> readable s -> parse (fmt i) = Some s.
Proof. intros Ht H Hg. unfold format_file. rewrite H. apply schema_print; [|exact Hg]. eapply schema_parse_ok; eassumption. Qed.
Lemma fmt_idem i s : text i -> parse i = Some s -> readable s -> fmt (fmt i) = fmt i.
Proof. intros Ht H Hg. pose proof (fmt_keeps i s Ht H Hg) as H2.
  assert (E : fmt i = pr_schema fmt_f64 esc_u s) by (unfold format_file; rewrite H; reflexivity).
  rewrite E in *. unfold format_file. rewrite H2. reflexivity. Qed.
End Fmt.

(** Every text that parses is rewritten to a text that parses to the same schema, provided that
    every float in it prints with a fractional part (and is read back as the same float) and no
    string contains a NUL.  Missing for the full claim: the refutations below. *)
Theorem C38_fmt_preserves_partial : forall (F : Type) (parse_f64 : str -> option F) (fmt_f64 : F -> str) (esc_u : N -> bool) (i : str) (s : pschema F),
  text i -> schema_parse parse_f64 i = Some s -> Forall (Reprintable fmt_f64 parse_f64) (schema_lits s) ->
  schema_parse parse_f64 (format_file fmt_f64 esc_u parse_f64 i) = Some s.
Proof. intros F pf ff eu i s. apply fmt_keeps. Qed.
Print Assumptions C38_fmt_preserves_partial.

(** Formatting twice is the same as formatting once. *)
Theorem C38_fmt_idempotent_partial : forall (F : Type) (parse_f64 : str -> option F) (fmt_f64 : F -> str) (esc_u : N -> bool) (i : str) (s : pschema F),
  text i -> schema_parse parse_f64 i = Some s -> Forall (Reprintable fmt_f64 parse_f64) (schema_lits s) ->
  format_file fmt_f64 esc_u parse_f64 (format_file fmt_f64 esc_u parse_f64 i) = format_file fmt_f64 esc_u parse_f64 i.
Proof. intros F pf ff eu i s. apply fmt_idem. Qed.
Print Assumptions C38_fmt_idempotent_partial.

(** A text that does not parse is not changed. *)
Theorem C38_invalid_untouched : forall (F : Type) (parse_f64 : str -> option F) (fmt_f64 : F -> str) (esc_u : N -> bool) (i : str),
  schema_parse parse_f64 i = None -> format_file fmt_f64 esc_u parse_f64 i = i.
Proof. intros F pf ff eu i H. unfold format_file. rewrite H. reflexivity. Qed.
Print Assumptions C38_invalid_untouched.

(** Whatever schema a text is printed from, if its names, sizes and types are proper, it is
    read back as that schema. *)
Theorem C38_print_parse : forall (F : Type) (parse_f64 : str -> option F) (fmt_f64 : F -> str) (esc_u : N -> bool) (s : pschema F),
  text (pr_schema fmt_f64 esc_u s) -> Forall (Reprintable fmt_f64 parse_f64) (schema_lits s) ->
  schema_parse parse_f64 (pr_schema fmt_f64 esc_u s) = Some s <-> SchemaOk s.
Proof.
  intros F pf ff eu s Ht Hg. split; [intros H; eapply schema_parse_ok; eassumption|]. intros H. apply schema_print; assumption.
Qed.
Print Assumptions C38_print_parse.

Definition C38_in : str := tx "/// Doc.

mod  a{/// c
const X:i32=-1;
#[x(y,z=""q"")]
struct  S<T>{a:vec<T>@1,}} enum E{A,B( u8 @1 ) @2}".
Example C38_ex : exists s, schema_parse (F := unit) (fun _ => None) C38_in = Some s /\ text C38_in
  /\ Forall (Reprintable (fun _ => []) (fun _ => None)) (schema_lits s)
  /\ format_file (fun _ : unit => []) (fun _ => false) (fun _ => None) C38_in = tx "/// Doc.

mod a {
    /// c
    const X: i32 = -1;
    #[x(y, z = ""q"")]
    struct S<T> {
        a: vec<T> @1,
    }
}

enum E {
    A,
    B(u8 @1) @2
}

".
Proof.
  eexists. split; [vm_compute; reflexivity|]. split; [apply tx_text; vm_compute; reflexivity|]. split; [|vm_compute; reflexivity].
  cbn. repeat constructor. intros H. cbn in H. intuition discriminate.
Qed.

(** Refuted in general: a float that prints without fractional part ([1.0] prints as [1])
    becomes an integer. *)
Theorem C38_float_refuted : forall (F : Type) (parse_f64 : str -> option F) (fmt_f64 : F -> str) (esc_u : N -> bool) (one : F),
  parse_f64 (tx "1.0") = Some one -> fmt_f64 one = tx "1" ->
  let i := tx "const X: f64 = 1.0;" in
  schema_parse parse_f64 i = Some (PSchema [] [PConst [] (tx "X") (PPrim PrF64) (LFloat one)])
  /\ schema_parse parse_f64 (format_file fmt_f64 esc_u parse_f64 i) = Some (PSchema [] [PConst [] (tx "X") (PPrim PrF64) (LInt 1)]).
Proof.
  intros F pf ff eu one Hp Hf i.
  assert (H : schema_parse pf i = Some (PSchema [] [PConst [] (tx "X") (PPrim PrF64) (LFloat one)])).
  { apply (one_def pf (fun _ => tx "1.0") eu (PConst [] (tx "X") (PPrim PrF64) (LFloat one))).
    - cbn [DefOk]. repeat split; try constructor. exists 88, []; repeat split; [unfold upper; lia..|constructor].
    - cbn [def_lits]. constructor; [|constructor]. split; [|exact Hp].
      exists [], [49], [48]. repeat split; try discriminate; try (left; reflexivity); (constructor; [unfold digit; lia|constructor]). }
  split; [exact H|]. unfold format_file. rewrite H. unfold pr_schema.
  cbn [ps_comment ps_defs map concat pr_def pr_comment pr_literal pr_type pr_prim]. rewrite Hf. vm_compute. reflexivity.
Qed.
Print Assumptions C38_float_refuted.

(** Refuted in general: a string with a NUL is written in a form the parser rejects. *)
Theorem C38_nul_refuted : forall (F : Type) (parse_f64 : str -> option F) (fmt_f64 : F -> str) (esc_u : N -> bool),
  let i := tx "const X: string = ""\u{0}"";" in
  schema_parse parse_f64 i = Some (PSchema [] [PConst [] (tx "X") (PPrim PrString) (LString [0])])
  /\ schema_parse parse_f64 (format_file fmt_f64 esc_u parse_f64 i) = None.
Proof. intros F pf ff eu i. split; vm_compute; reflexivity. Qed.
Print Assumptions C38_nul_refuted.

(** Refuted in general: comments on imports, and attributes on anything but structs and enums,
    are thrown away. *)
Theorem C38_comments_refuted : forall (F : Type) (parse_f64 : str -> option F) (fmt_f64 : F -> str) (esc_u : N -> bool),
  format_file fmt_f64 esc_u parse_f64 (tx "/// Important.
use other::Thing;
") = tx "use other::Thing;
"
  /\ format_file fmt_f64 esc_u parse_f64 (tx "#[deprecated]
type A = u8;
") = tx "type A = u8;
".
Proof. intros. split; vm_compute; reflexivity. Qed.
Print Assumptions C38_comments_refuted.

(** * C39: literals *)

(** A literal other than a float, written into a constant, is read back as the same literal
    exactly when it is a literal of the language and contains no NUL. *)
Theorem C39_literal_round_trip : forall (F : Type) (parse_f64 : str -> option F) (fmt_f64 : F -> str) (esc_u : N -> bool) (v : lit F),
  (forall f, v <> LFloat f) -> (forall s, v = LString s -> text s) -> text (pr_literal fmt_f64 esc_u v) ->
  schema_parse parse_f64 (tx "const X: u8 = " ++ pr_literal fmt_f64 esc_u v ++ tx ";") = Some (PSchema [] [PConst [] (tx "X") (PPrim PrU8) v])
  <-> match v with
      | LBool _ => True
      | LInt z => (- 2 ^ 127 <= z < 2 ^ 127)%Z
      | LString s => ~ In 0 s
      | LBytes l => l <> [] /\ Forall (fun b => b < 256) l
      | LFloat _ => False
      end.
Proof.
  intros F pf ff eu v Hnf Hst Ht.
  pose proof (one_def_iff pf ff eu (PConst [] (tx "X") (PPrim PrU8) v)) as H.
  assert (E : pr_def ff eu 0 (PConst [] (tx "X") (PPrim PrU8) v) = tx "const X: u8 = " ++ pr_literal ff eu v ++ tx ";") by reflexivity.
  rewrite E in H.
  assert (HX : ConstName (tx "X")) by (exists 88, []; repeat split; [unfold upper; lia..|constructor]).
  assert (Hcn : (DefOk (PConst [] (tx "X") (PPrim PrU8) v)) <-> LitOk v).
  { cbn [DefOk]. split; [tauto|]. intros Hv. repeat split; try assumption; constructor. }
  rewrite Hcn in H.
  assert (Htx : text (tx "const X: u8 = " ++ pr_literal ff eu v ++ tx ";")) by txt.
  destruct v as [b|z|f|s|l]; cbn [LitOk] in H.
  - rewrite H; [tauto|exact Htx|repeat constructor].
  - rewrite H; [tauto|exact Htx|repeat constructor].
  - exfalso. apply (Hnf f). reflexivity.
  - split.
    + intros HS H0. pose proof (string_nul eu s (tx ";") (Hst s eq_refl) H0) as HN.
      assert (HC : parse_const pf (tx "const X: u8 = " ++ pr_string eu s ++ tx ";") = PCut).
      { unfold parse_const. rewrite (bind_ok _ _ _ tt (tx " X: u8 = " ++ pr_string eu s ++ tx ";")) by reflexivity.
        rewrite (bind_ok _ _ _ tt (tx "X: u8 = " ++ pr_string eu s ++ tx ";")) by reflexivity.
        unfold cut_err. rewrite (bind_ok _ _ _ (tx "X") (tx ": u8 = " ++ pr_string eu s ++ tx ";")) by reflexivity.
        rewrite (bind_ok _ _ _ tt (tx " u8 = " ++ pr_string eu s ++ tx ";")) by reflexivity.
        rewrite (bind_ok _ _ _ tt (tx "u8 = " ++ pr_string eu s ++ tx ";")) by reflexivity.
        rewrite (bind_ok _ _ _ (PPrim PrU8) (tx " = " ++ pr_string eu s ++ tx ";")) by reflexivity.
        rewrite (bind_ok _ _ _ tt (tx "= " ++ pr_string eu s ++ tx ";")) by reflexivity.
        rewrite (bind_ok _ _ _ tt (tx " " ++ pr_string eu s ++ tx ";")) by reflexivity.
        rewrite (bind_ok _ _ _ tt (pr_string eu s ++ tx ";")) by reflexivity.
        unfold pbind at 1. unfold parse_literal.
        rewrite (bind_ok _ _ _ 34 (pr_string eu s ++ tx ";")) by reflexivity. cbv beta.
        change (34 =? 116) with false. change (34 =? 102) with false. change (is_sign 34 || is_digit 34) with false.
        change (34 =? 34) with true. cbv iota. unfold pmap, pbind. rewrite HN. reflexivity. }
      cbn [pr_literal] in HS. unfold schema_parse, parse_schema in HS.
      rewrite (bind_ok _ _ _ None (tx "const X: u8 = " ++ pr_string eu s ++ tx ";")) in HS by reflexivity.
      unfold pbind at 1, repeat0 in HS. cbn [repeat_loop] in HS.
      assert (HD : pdefinition pf (tx "const X: u8 = " ++ pr_string eu s ++ tx ";") = PCut).
      { unfold pdefinition. cbn [parse_definition].
        rewrite (bind_ok _ _ _ ([] : comment) (tx "const X: u8 = " ++ pr_string eu s ++ tx ";")) by reflexivity.
        rewrite (bind_ok _ _ _ [] (tx "const X: u8 = " ++ pr_string eu s ++ tx ";")) by reflexivity.
        rewrite (bind_ok _ _ _ tt (tx "const X: u8 = " ++ pr_string eu s ++ tx ";")) by reflexivity.
        unfold pbind at 1. rewrite (bind_ok _ _ _ 99 (tx "const X: u8 = " ++ pr_string eu s ++ tx ";")) by reflexivity.
        cbv beta. change (99 =? 109) with false. change (99 =? 115) with false.
        change (99 =? 101) with false. change (99 =? 99) with true. cbv iota. rewrite HC. reflexivity. }
      rewrite HD in HS. discriminate HS.
    + intros H0. apply H; [exact Htx|constructor; [exact H0|constructor]|exact (Hst s eq_refl)].
  - rewrite H; [tauto|exact Htx|repeat constructor].
Qed.
Print Assumptions C39_literal_round_trip.

(** A float is read back when it prints with a fractional part and [f64::from_str] inverts
    [Display]. *)
Theorem C39_float_partial : forall (F : Type) (parse_f64 : str -> option F) (fmt_f64 : F -> str) (esc_u : N -> bool) (f : F),
  DecimalPoint (fmt_f64 f) -> parse_f64 (fmt_f64 f) = Some f ->
  schema_parse parse_f64 (tx "const X: f64 = " ++ fmt_f64 f ++ tx ";") = Some (PSchema [] [PConst [] (tx "X") (PPrim PrF64) (LFloat f)]).
Proof.
  intros F pf ff eu f H1 H2. apply (one_def pf ff eu (PConst [] (tx "X") (PPrim PrF64) (LFloat f))).
  - cbn [DefOk]. repeat split; try constructor. exists 88, []; repeat split; [unfold upper; lia..|constructor].
  - cbn. constructor; [split; assumption|constructor].
Qed.
Print Assumptions C39_float_partial.
(** A string with a quote, a backslash, a line break, an escaped control character and an emoji. *)
Example C39_ex : schema_parse (F := unit) (fun _ => None) (tx "const X: u8 = " ++ pr_literal (fun _ : unit => []) (fun c => c <? 32) (LString [34; 92; 10; 27; 128512]) ++ tx ";")
  = Some (PSchema [] [PConst [] (tx "X") (PPrim PrU8) (LString [34; 92; 10; 27; 128512])]).
Proof. vm_compute. reflexivity. Qed.

(** * C40: names and ids *)
Section Names.
Context {F : Type}.
Variable pf : str -> option F.
Lemma name_iff (d : pdef F) i (P : Prop) : pr_def (fun _ => []) (fun _ => true) 0 d = i -> text i -> def_lits d = [] ->
  (DefOk d <-> P) -> schema_parse pf i = Some (PSchema [] [d]) <-> P.
Proof. intros <- Ht Hl HP. rewrite <- HP. apply one_def_iff; [exact Ht|]. rewrite Hl. constructor. Qed.
End Names.
Lemma upperA n : n = tx "A" -> TypeName n.
Proof. intros ->. exists 65, []. repeat split; [unfold upper; lia..|constructor]. Qed.
Lemma lowera n : n = tx "a" -> LowerName n.
Proof. intros ->. exists 97, []. repeat split; [unfold lower; lia..|constructor]. Qed.
Ltac ok := repeat match goal with
  | |- _ /\ _ => split
  | |- Forall _ [] => constructor
  | |- Forall _ (_ :: _) => constructor
  | |- Forall _ _ => progress (cbn [pv_comment nf_comment p_values p_init p_last app])
  | |- VariantOk _ => unfold VariantOk
  | |- NFieldOk _ => unfold NFieldOk
  | |- UFieldOk _ => unfold UFieldOk
  | |- True => exact I
  | |- _ => progress (cbn [DefOk GenericsOk FieldsOk fold_right AttrOk TypeOk NoShadow IdOk LitOk pv_name pv_fields pv_id nf_name nf_ty nf_id uf_ty uf_id])
  end; try assumption; try (apply upperA; reflexivity); try (apply lowera; reflexivity); try discriminate.
Ltac prop := let H := fresh in split; [intros H; cbn [DefOk GenericsOk FieldsOk fold_right AttrOk p_values p_init p_last app] in H;
    unfold VariantOk, NFieldOk, UFieldOk in H; cbn in H;
    repeat match goal with H : _ /\ _ |- _ => destruct H | H : AttrOk _ |- _ => progress (cbn [AttrOk] in H) | H : Forall _ (_ :: _) |- _ => inversion H; subst; clear H end; assumption
  |intros H; ok].

Ltac same := cbn; repeat (rewrite <- app_assoc; cbn); rewrite ?app_nil_r; reflexivity.

(** Exactly the documented names are accepted, in each place where a name is introduced. *)
Theorem C40_names : forall (F : Type) (parse_f64 : str -> option F) (n : str), text n ->
  (schema_parse parse_f64 (tx "struct " ++ n ++ [10]) = Some (PSchema [] [PStruct [] [] n None FUnit]) <-> TypeName n)
  /\ (schema_parse parse_f64 (tx "enum " ++ n ++ tx " {
    A
}
") = Some (PSchema [] [PEnum [] [] n None (Punct [] (PVariant [] (tx "A") FUnit None) false)]) <-> TypeName n)
  /\ (schema_parse parse_f64 (tx "enum A {
    " ++ n ++ tx "
}
") = Some (PSchema [] [PEnum [] [] (tx "A") None (Punct [] (PVariant [] n FUnit None) false)]) <-> TypeName n)
  /\ (schema_parse parse_f64 (tx "type " ++ n ++ tx " = u8;") = Some (PSchema [] [PAlias [] n None (PPrim PrU8)]) <-> TypeName n)
  /\ (schema_parse parse_f64 (tx "type A<" ++ n ++ tx "> = u8;") = Some (PSchema [] [PAlias [] (tx "A") (Some (Punct [] n false)) (PPrim PrU8)]) <-> TypeName n)
  /\ (schema_parse parse_f64 (tx "const " ++ n ++ tx ": u8 = true;") = Some (PSchema [] [PConst [] n (PPrim PrU8) (LBool true)]) <-> ConstName n)
  /\ (schema_parse parse_f64 (tx "mod " ++ n ++ tx " {
}
") = Some (PSchema [] [PModule [] n []]) <-> LowerName n)
  /\ (schema_parse parse_f64 (tx "struct A {
    " ++ n ++ tx ": u8
}
") = Some (PSchema [] [PStruct [] [] (tx "A") None (FNamed (Punct [] (NField [] n (PPrim PrU8) None) false))]) <-> LowerName n)
  /\ (schema_parse parse_f64 (tx "use a::" ++ n ++ tx "::A;") = Some (PSchema [] [PImport [tx "a"; n] (Some (tx "A"))]) <-> LowerName n)
  /\ (schema_parse parse_f64 (tx "use a::" ++ n ++ tx ";") = Some (PSchema [] [PImport [tx "a"] (Some n)]) <-> TypeName n)
  /\ (schema_parse parse_f64 (tx "#[" ++ n ++ tx "]
struct A
") = Some (PSchema [] [PStruct [] [Attr n AUnit] (tx "A") None FUnit]) <-> LowerName n)
  /\ (schema_parse parse_f64 (tx "type A = " ++ n ++ tx ";") = Some (PSchema [] [PAlias [] (tx "A") None (PExternal [] n None)]) <-> RefName n).
Proof.
  intros F pf n Hn. repeat match goal with |- _ /\ _ => split end.
  - apply name_iff; [same|txt|reflexivity|prop].
  - apply name_iff; [same|txt|reflexivity|prop].
  - apply name_iff; [same|txt|reflexivity|prop].
  - apply name_iff; [same|txt|reflexivity|prop].
  - apply name_iff; [same|txt|reflexivity|prop].
  - pose proof (one_def_iff pf (fun _ => []) (fun _ => true) (PConst [] n (PPrim PrU8) (LBool true))) as H.
    assert (E : pr_def (fun _ : F => []) (fun _ => true) 0 (PConst [] n (PPrim PrU8) (LBool true)) = tx "const " ++ n ++ tx ": u8 = true;") by reflexivity.
    rewrite E in H. rewrite H; [prop|txt|repeat constructor].
  - apply name_iff; [same|txt|reflexivity|prop].
  - apply name_iff; [same|txt|reflexivity|prop].
  - apply name_iff; [same|txt|reflexivity|prop].
  - apply name_iff; [same|txt|reflexivity|prop].
  - apply name_iff; [same|txt|reflexivity|prop].
  - apply name_iff; [same|txt|reflexivity|prop].
Qed.
Print Assumptions C40_names.
(** [Value2] is a type's name but not a field's, [some_value] the other way round. *)
Example C40_ex : TypeName (w "Value2") /\ ~ LowerName (w "Value2") /\ LowerName (w "some_value") /\ ~ TypeName (w "some_value").
Proof.
  split; [|split; [|split]].
  - exists 86, (w "alue2"). split; [reflexivity|]. split; [unfold upper; lia|]. apply Forall_forall. intros c Hc.
    assert (H : is_alnum c = true) by (revert c Hc; apply forallb_forall; reflexivity). clsg.
  - intros (c & r & E & Hc & _). injection E as <- _. unfold lower in Hc. lia.
  - apply lower_check. reflexivity.
  - intros (c & r & E & Hc & _). injection E as <- _. unfold upper in Hc. lia.
Qed.

(** The longest name is taken, the rest of the text left alone. *)
Lemma ident_iff (f g : N -> bool) (first more : N -> Prop) i n r :
  (forall c, f c = true <-> first c) -> (forall c, g c = true <-> more c) ->
  ident f g i = POk n r <-> i = n ++ r /\ named first more n /\ match r with c :: _ => ~ more c | [] => True end.
Proof.
  intros Hf Hg. split.
  - intros H. unfold ident in H. unfold pbind at 1 in H. destruct i as [|c i]; [discriminate|]. cbn [one_of] in H.
    destruct (f c) eqn:E; [|discriminate]. unfold pbind, take_while in H.
    destruct (span_split g i) as (a & r' & Hs & -> & Ha & Hr). rewrite Hs in H. cbn in H. injection H as <- <-.
    split; [reflexivity|]. split.
    + exists c, a. split; [reflexivity|]. split; [apply Hf, E|]. apply Forall_forall. intros x Hx. apply Hg.
      rewrite forallb_forall in Ha. auto.
    + destruct r' as [|x r']; [exact I|]. rewrite <- Hg, Hr. discriminate.
  - intros (-> & Hn & Hr). apply (ident_ok f g first more); [exact Hn|intros c; apply Hf|intros c; apply Hg|].
    destruct r as [|c r]; [exact I|]. cbn. destruct (g c) eqn:E; [|reflexivity]. apply Hg in E. contradiction.
Qed.
Theorem C40_longest_name : forall (i n r : str),
  let ends (more : N -> Prop) := match r with c :: _ => ~ more c | [] => True end in
  (type_name i = POk n r <-> i = n ++ r /\ TypeName n /\ ends (fun c => upper c \/ lower c \/ digit c))
  /\ (lower_name i = POk n r <-> i = n ++ r /\ LowerName n /\ ends (fun c => lower c \/ digit c \/ underscore c))
  /\ (const_name i = POk n r <-> i = n ++ r /\ ConstName n /\ ends (fun c => upper c \/ digit c \/ underscore c))
  /\ (external_name i = POk n r <-> i = n ++ r /\ RefName n /\ ends (fun c => upper c \/ lower c \/ digit c \/ underscore c)).
Proof.
  intros i n r ends. unfold ends. repeat match goal with |- _ /\ _ => split end; apply ident_iff; intros c;
    try unfold lower_tail, is_alnum; unfold is_lower, is_upper, is_digit, lower, upper, digit, underscore; lia.
Qed.
Print Assumptions C40_longest_name.

Lemma digits_iff d v : Digits d v <-> Forall digit d /\ dec_value d = v.
Proof.
  split.
  - intros H. induction H as [|d v c H [IH1 IH2] Hc]; [split; [constructor|reflexivity]|].
    split; [apply Forall_app; split; [exact IH1|constructor; [exact Hc|constructor]]|].
    rewrite dec_value_app, IH2. cbn [fold_left]. lia.
  - revert v. induction d as [|c d IH] using rev_ind; intros v [Hd Hv]; [cbn in Hv; subst; constructor|].
    apply Forall_app in Hd as [Hd Hc]. inversion Hc; subst. rewrite dec_value_app. cbn [fold_left].
    rewrite N.mul_comm. constructor; [apply IH; split; [exact Hd|reflexivity]|assumption].
Qed.
(** An id is an at sign and a decimal number below 2^32 without leading zeros; behind a zero
    no further digit is looked at. *)
Theorem C40_ids : forall (i r : str) (v : N),
  parse_id i = POk v r <->
  exists d, i = w "@" ++ d ++ r /\ Decimal d v /\ v < 2 ^ 32
    /\ (d = w "0" \/ match r with c :: _ => ~ digit c | [] => True end).
Proof.
  intros i r v. unfold parse_id, pbind. split.
  - intros H. destruct i as [|c i]; [discriminate|]. cbn [char] in H. destruct (c =? 64) eqn:E; [|discriminate].
    assert (c = 64) by lia. subst c. destruct i as [|c i]; [discriminate|]. cbn [dec_uint] in H.
    destruct ((49 <=? c) && (c <=? 57)) eqn:E1.
    + destruct (span_split is_digit i) as (a & r' & Hs & -> & Ha & Hr). rewrite Hs in H.
      destruct (dec_value (c :: a) <=? 2 ^ 32 - 1) eqn:E2; [|discriminate]. injection H as <- <-.
      exists (c :: a). split; [reflexivity|]. split.
      { split; [apply digits_iff; split; [|reflexivity]|split; [discriminate|right; lia]].
        constructor; [unfold digit; lia|]. apply Forall_forall. intros x Hx. rewrite forallb_forall in Ha. specialize (Ha x Hx). clsg. }
      split; [lia|]. right. destruct r' as [|x r']; [exact I|]. cbn in Hr. clsg.
    + destruct (c =? 48) eqn:E2; [|discriminate]. injection H as <- <-. assert (c = 48) by lia. subst c.
      exists [48]. split; [reflexivity|]. split.
      { split; [apply digits_iff; split; [constructor; [unfold digit; lia|constructor]|reflexivity]|]. split; [discriminate|left; reflexivity]. }
      split; [lia|left; reflexivity].
  - intros (d & -> & (Hd & Hne & Hz) & Hv & Hr). change (w "@" ++ d ++ r) with (64 :: d ++ r). cbn [char]. change (64 =? 64) with true. cbv iota.
    apply digits_iff in Hd as [Hd Hdv]. destruct d as [|c d]; [contradiction|]. inversion Hd as [|? ? Hc Hd']; subst. cbn [app dec_uint].
    destruct Hz as [Hz|Hz].
    + injection Hz as -> ->. reflexivity.
    + assert ((49 <=? c) && (c <=? 57) = true) as -> by (unfold digit in Hc; lia).
      destruct Hr as [Hr|Hr]; [injection Hr as -> _; contradiction|].
      rewrite span_app; [|apply digits_b, Hd'|destruct r as [|x r]; [exact I|clsg]].
      assert (dec_value (c :: d) <=? 2 ^ 32 - 1 = true) as -> by lia. reflexivity.
Qed.
Print Assumptions C40_ids.
Example C40_ids_ex : parse_id (tx "@120,") = POk 120 (tx ",") /\ parse_id (tx "@012") = POk 0 (tx "12") /\ parse_id (tx "@4294967296") = PBack.
Proof. repeat split; vm_compute; reflexivity. Qed.

(** * C47: punctuated lists *)
Lemma punctuated_text {A} (e : parser A) (items : list (A * str)) (x : A) (tx0 : str) (trail : bool) (rest : str) :
  (forall v t, In (v, t) items -> forall y, exists s, sp s /\ e (t ++ 44 :: y) = POk v (s ++ 44 :: y)) ->
  (exists s, sp s /\ e (tx0 ++ (if trail then [44] else []) ++ rest) = POk x (s ++ (if trail then [44] else []) ++ rest)) ->
  (trail = true -> e rest = PBack) -> (forall s, sp s -> ws comma (s ++ rest) = PBack) ->
  exists s, sp s /\
  punctuated e (concat (map (fun vt => snd vt ++ [44]) items) ++ tx0 ++ (if trail then [44] else []) ++ rest)
  = POk (Punct (map fst items) x trail) (s ++ rest).
Proof.
  intros Hi (s & Hs & Hx) Hback Hws. exists (if trail then [] else s). split; [destruct trail; [reflexivity|exact Hs]|].
  unfold punctuated, punctuate.
  set (f := pdo a <- e; ws comma ;; pret a).
  set (g := pdo a <- e; pdo t <- opt (ws comma); pret (a, match t with Some _ => true | None => false end)).
  set (body := fun l : list (A * str) => concat (map (fun vt => snd vt ++ [44]) l) ++ tx0 ++ (if trail then [44] else []) ++ rest).
  assert (Hc : forall s y, sp s -> ws comma (s ++ 44 :: y) = POk tt y).
  { intros s0 y Hs0. rewrite ws_ok by (try exact Hs0; reflexivity). reflexivity. }
  assert (H : forall l acc prev fuel, (forall vt, In vt l -> In vt items) -> (length (body l) < fuel)%nat ->
     punct_loop fuel f g acc prev (body l) = POk (Punct (acc ++ map fst l) x trail) ((if trail then [] else s) ++ rest)).
  { induction l as [|[v t] l IH]; intros acc prev fuel Hin Hfu; (destruct fuel as [|fuel]; [lia|]).
    - unfold body in *. cbn [map concat app] in *. rewrite app_nil_r. cbn [punct_loop]. destruct trail.
      + cbn [app] in *.
        assert (Hf : f (tx0 ++ 44 :: rest) = POk x rest) by (unfold f; rewrite (bind_ok _ _ _ _ _ Hx), (bind_ok _ _ _ tt rest) by (apply Hc, Hs); reflexivity).
        assert (Hg : g (tx0 ++ 44 :: rest) = POk (x, true) rest).
        { unfold g. rewrite (bind_ok _ _ _ _ _ Hx). rewrite (bind_ok _ _ _ (Some tt) rest) by (apply opt_ok, Hc, Hs). reflexivity. }
        rewrite Hf. rewrite app_length in *. cbn [length] in *.
        destruct (length rest =? _)%nat eqn:E; [apply Nat.eqb_eq in E; lia|].
        destruct fuel as [|fuel]; [lia|]. cbn [punct_loop].
        assert (Hf0 : f rest = PBack) by (apply bind_back, Hback; reflexivity).
        assert (Hg0 : g rest = PBack) by (apply bind_back, Hback; reflexivity).
        rewrite Hf0, Hg0, Hg, removelast_app_one. reflexivity.
      + cbn [app] in *.
        assert (Hf : f (tx0 ++ rest) = PBack) by (unfold f; rewrite (bind_ok _ _ _ _ _ Hx); apply bind_back, Hws, Hs).
        assert (Hg : g (tx0 ++ rest) = POk (x, false) (s ++ rest)).
        { unfold g. rewrite (bind_ok _ _ _ _ _ Hx), (bind_ok _ _ _ None (s ++ rest)) by (apply opt_back, Hws, Hs). reflexivity. }
        rewrite Hf, Hg. reflexivity.
    - assert (Hb : body ((v, t) :: l) = t ++ 44 :: body l).
      { unfold body. cbn [map concat snd]. rewrite <- !app_assoc. reflexivity. }
      rewrite Hb in *. destruct (Hi v t (Hin _ (or_introl eq_refl)) (body l)) as (s1 & Hs1 & He). cbn [punct_loop].
      assert (Hf : f (t ++ 44 :: body l) = POk v (body l)) by (unfold f; rewrite (bind_ok _ _ _ _ _ He), (bind_ok _ _ _ tt (body l)) by (apply Hc, Hs1); reflexivity).
      rewrite Hf. rewrite app_length in *. cbn [length] in *.
      destruct (length (body l) =? _)%nat eqn:E; [apply Nat.eqb_eq in E; lia|].
      rewrite IH; [cbn [map fst]; rewrite <- app_assoc; reflexivity|intros vt Hvt; apply Hin; right; exact Hvt|lia]. }
  apply (H items [] None (S (length (body items))) (fun vt Hvt => Hvt)). apply Nat.lt_succ_diag_r.
Qed.
Lemma white_sp s : White s -> sp s.
Proof. intros H. unfold sp. apply forallb_forall. unfold White in H. rewrite Forall_forall in H. intros c Hc. specialize (H c Hc). cbn in H. unfold is_mspace. lia. Qed.
Lemma ufield_white f s s' x y : UFieldOk f -> sp s -> sp s' -> (x = 44 \/ x = 41) ->
  parse_unnamed_field (s ++ pr_ufield f ++ s' ++ x :: y) = POk f (s' ++ x :: y).
Proof.
  intros (Ht & Hn & Hi) Hs Hs' Hx. destruct f as [t i]. unfold pr_ufield. cbn [uf_ty uf_id] in *.
  rewrite <- app_assoc. unfold parse_unnamed_field.
  assert (Hst : forall g : N -> bool, g 32 = false -> g 9 = false -> g 13 = false -> g 10 = false -> g 44 = false -> g 41 = false -> hn g (s' ++ x :: y)).
  { intros g H1 H2 H3 H4 H5 H6. destruct s' as [|c s']; cbn; [destruct Hx as [->| ->]; assumption|].
    unfold sp in Hs'. cbn in Hs'. apply andb_true_iff in Hs' as [Hc _]. unfold is_mspace in Hc.
    assert (c = 32 \/ c = 9 \/ c = 13 \/ c = 10) as [->|[->|[->| ->]]] by lia; assumption. }
  rewrite (bind_ok _ _ _ t (pr_id i ++ s' ++ x :: y)).
  2:{ rewrite ws_ok; [|exact Hs|apply type_head_ms, Ht]. apply ptype_print; [exact Ht|exact Hn|].
      destruct i; [reflexivity|apply Hst; reflexivity]. }
  rewrite (bind_ok _ _ _ i (s' ++ x :: y)); [reflexivity|].
  destruct i as [n|]; cbn [pr_id app].
  - apply opt_ok. rewrite (bind_ok _ _ _ tt (64 :: dec_str n ++ s' ++ x :: y)) by reflexivity.
    unfold parse_id. rewrite (bind_ok _ _ _ tt (dec_str n ++ s' ++ x :: y)) by reflexivity.
    apply dec_uint_ok; [cbn in Hi; lia|apply Hst; reflexivity].
  - apply opt_back. destruct (span_split is_space (s' ++ x :: y)) as (a & r & _ & E & Ha & Hr). rewrite E.
    rewrite (bind_ok _ _ _ tt r) by (apply space0_ok; assumption). unfold parse_id. apply bind_back.
    destruct r as [|c r]; [reflexivity|]. apply char_miss. intros ->.
    assert (Hin : In 64 (s' ++ x :: y)) by (rewrite E; apply in_or_app; right; left; reflexivity).
    clear - E Hs' Hx Ha. revert a E Ha. induction s' as [|c s' IH]; intros a E Ha.
    + destruct a as [|c a]; cbn in E; injection E as E1 E2; subst; [lia|]. cbn in Ha. unfold is_space in Ha. lia.
    + unfold sp in Hs'. cbn in Hs'. apply andb_true_iff in Hs' as [Hc Hs'']. destruct a as [|c0 a]; cbn in E; injection E as E1 E2; subst.
      * unfold is_mspace in Hc. lia.
      * apply (IH Hs'' a E2). cbn in Ha. apply andb_true_iff in Ha as [_ Ha]. exact Ha.
Qed.

(** The fields of a tuple struct, written with any white space around them and separated by
    commas, are found in the order in which they were written, and none is lost or added. *)
Theorem C47_source_order : forall (F : Type) (parse_f64 : str -> option F)
    (l : list (str * ufield * str)) (s1 : str) (x : ufield) (s2 : str) (trail : bool) (s3 : str),
  (forall a f b, In (a, f, b) l -> White a /\ UFieldOk f /\ White b) -> White s1 -> UFieldOk x -> White s2 -> White s3 ->
  exists p : punct ufield,
    schema_parse parse_f64 (tx "struct A(" ++ concat (map (fun '(a, f, b) => a ++ pr_ufield f ++ b ++ [44]) l)
      ++ s1 ++ pr_ufield x ++ s2 ++ (if trail then [44] ++ s3 else []) ++ tx ")")
    = Some (PSchema [] [PStruct [] [] (tx "A") None (FUnnamed p)])
    /\ p_values p = map (fun '(_, f, _) => f) l ++ [x] /\ p_len p = S (length l) /\ p_trail p = trail.
Proof.
  intros F pf l s1 x s2 trail s3 Hl H1 Hx H2 H3.
  set (items := map (fun '(a, f, b) => (f, a ++ pr_ufield f ++ b)) l).
  set (rest := (if trail then s3 else []) ++ 41 :: []).
  assert (Hs3 : sp (if trail then s3 else [])) by (destruct trail; [apply white_sp, H3|reflexivity]).
  destruct (punctuated_text parse_unnamed_field items x (s1 ++ pr_ufield x ++ s2) trail rest) as (s & Hs & HP).
  - intros v t Hin y. unfold items in Hin. apply in_map_iff in Hin as ([[a f] b] & E & Hin). injection E as -> <-.
    destruct (Hl a v b Hin) as (Ha & Hf & Hb). exists b. split; [apply white_sp, Hb|]. rewrite <- !app_assoc.
    apply ufield_white; [exact Hf|apply white_sp, Ha|apply white_sp, Hb|auto].
  - exists s2. split; [apply white_sp, H2|]. unfold rest. rewrite <- !app_assoc. destruct trail; cbn [app];
      (apply ufield_white; [exact Hx|apply white_sp, H1|apply white_sp, H2|auto]).
  - intros _. unfold rest. apply ufield_back, Hs3.
  - intros s Hs. unfold rest. rewrite app_assoc. rewrite ws_ok; [reflexivity|apply sp_app; assumption|reflexivity].
  - set (p := Punct (map fst items) x trail) in *. exists p. split; [|split; [|split]].
    + set (T := concat _ ++ _).
      assert (ET : T = concat (map (fun vt => snd vt ++ [44]) items) ++ (s1 ++ pr_ufield x ++ s2) ++ (if trail then [44] else []) ++ rest).
      { unfold T, items, rest. rewrite map_map. f_equal.
        - f_equal. apply map_ext. intros [[a f] b]. cbn. rewrite <- !app_assoc. reflexivity.
        - rewrite <- !app_assoc. destruct trail; cbn; reflexivity. }
      rewrite <- ET in HP.
      assert (Hst : @parse_struct F (tx "struct A(" ++ T) = POk (PStruct [] [] (tx "A") None (FUnnamed p)) []).
      { unfold parse_struct. rewrite (bind_ok _ _ _ tt (tx " A(" ++ T)) by reflexivity.
        rewrite (bind_ok _ _ _ tt (tx "A(" ++ T)) by reflexivity. apply cut_ok.
        rewrite (bind_ok _ _ _ (tx "A") (tx "(" ++ T)) by reflexivity.
        rewrite (bind_ok _ _ _ None (tx "(" ++ T)) by reflexivity.
        rewrite (bind_ok _ _ _ tt (tx "(" ++ T)) by reflexivity.
        rewrite (bind_ok _ _ _ (FUnnamed p) []); [reflexivity|].
        unfold parse_fields. rewrite (bind_ok _ _ _ 40 (tx "(" ++ T)) by reflexivity. cbv beta.
        change (40 =? 123) with false. change (40 =? 40) with true. cbv iota. apply map_ok. unfold surround.
        rewrite (bind_ok _ _ _ tt T) by reflexivity. apply cut_ok. rewrite (bind_ok _ _ _ _ _ HP).
        unfold rest. rewrite app_assoc. rewrite (bind_ok _ _ _ tt []); [reflexivity|].
        rewrite ws_ok; [reflexivity|apply sp_app; assumption|reflexivity]. }
      assert (HD : forall n, parse_definition pf (S n) (tx "struct A(" ++ T) = POk (PStruct [] [] (tx "A") None (FUnnamed p)) []).
      { intros n. cbn [parse_definition].
        rewrite (bind_ok _ _ _ ([] : comment) (tx "struct A(" ++ T)) by reflexivity.
        rewrite (bind_ok _ _ _ [] (tx "struct A(" ++ T)) by reflexivity.
        rewrite (bind_ok _ _ _ tt (tx "struct A(" ++ T)) by reflexivity.
        rewrite (bind_ok _ _ _ (PStruct [] [] (tx "A") None (FUnnamed p)) []); [reflexivity|].
        rewrite (bind_ok _ _ _ 115 (tx "struct A(" ++ T)) by reflexivity. exact Hst. }
      unfold schema_parse, parse_schema.
      rewrite (bind_ok _ _ _ None (tx "struct A(" ++ T)) by reflexivity.
      rewrite (bind_ok _ _ _ [PStruct [] [] (tx "A") None (FUnnamed p)] []); [reflexivity|].
      apply repeat_chain. apply chain_cons with (r := []); [apply HD|cbn; lia|]. constructor. reflexivity.
    + unfold p, p_values, items. cbn. rewrite map_map. f_equal. apply map_ext. intros [[a f] b]. reflexivity.
    + unfold p, p_len, items. cbn [p_init]. rewrite !map_length. rewrite Nat.add_1_r. reflexivity.
    + reflexivity.
Qed.
Print Assumptions C47_source_order.
(** [struct A(], line break, [u8,], tab, [bool @2 , u8] and a trailing comma. *)
Example C47_ex : schema_parse (F := unit) (fun _ => None) (tx "struct A(
  u8,	bool @2 , u8
 ,
)") = Some (PSchema [] [PStruct [] [] (tx "A") None (FUnnamed (Punct [UField (PPrim PrU8) None; UField (PPrim PrBool) (Some 2)] (UField (PPrim PrU8) None) true))]).
Proof. vm_compute. reflexivity. Qed.
(** A punctuated list is never empty, and its length is the number of the values it yields. *)
Theorem C47_length : forall (A : Type) (p : punct A), p_len p = length (p_values p) /\ (1 <= p_len p)%nat.
Proof. intros A p. unfold p_len, p_values. rewrite app_length. cbn. lia. Qed.
Print Assumptions C47_length.

(** * C51: the parser is total *)

(** On every text the parser ends, with a schema or with an error: it neither runs into
    winnow's assertion against repeating a parser that consumes nothing nor recurses deeper than
    the text is long. *)
Theorem C51_parser_total : forall (F : Type) (parse_f64 : str -> option F) (i : str), text i ->
  match parse_schema parse_f64 i with
  | POk _ r => exists pre, i = pre ++ r
  | PBack | PCut => True
  | PBug | PFuel => False
  end.
Proof.
  intros F pf i Ht. pose proof (spec_schema pf (length i) i Ht (le_n _)) as H.
  destruct (parse_schema pf i) as [s r| | | |]; auto. destruct H as ((pre & E & _) & _). eauto.
Qed.
Print Assumptions C51_parser_total.
Example C51_ex : text (tx "struct A((((") /\ parse_schema (F := unit) (fun _ => None) (tx "struct A((((") = PCut.
Proof. split; [apply tx_text; reflexivity|vm_compute; reflexivity]. Qed.

(** * C52: parsed schemas are well formed *)

(** Whatever text was parsed: all names are proper for their place, ids and array sizes fit 32
    bits, integers fit 128 bits and bytes 8, comments are single lines, lists are not empty. *)
Theorem C52_well_formed : forall (F : Type) (parse_f64 : str -> option F) (i : str) (s : pschema F),
  text i -> schema_parse parse_f64 i = Some s -> SchemaOk s.
Proof. intros F pf i s. apply schema_parse_ok. Qed.
Print Assumptions C52_well_formed.
Example C52_ex : exists s, schema_parse (F := unit) (fun _ => None) C38_in = Some s /\ length (ps_defs s) = 2%nat.
Proof. eexists. split; [vm_compute; reflexivity|reflexivity]. Qed.
