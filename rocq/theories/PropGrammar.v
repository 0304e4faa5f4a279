(** C68: the parser accepts exactly the schema language. *)
From Verif Require Import Base Syntax Parser Printer ParserSpec ParserTotal ParserRound Grammar GrammarSound GrammarComplete.
Require Import ZifyN ZifyBool.
Require Coq.Strings.String.
Import Coq.Strings.String.StringSyntax.
Local Open Scope N_scope.

Lemma opening_total i : text i -> match (pdo c <- ws comments; char 10 ;; pret c) i with POk _ _ | PBack => True | _ => False end.
Proof.
  intros Ht. pose proof (@spec_ws comment 0 (length i) (Forall LineOk) comments (spec_comments (length i)) i Ht (le_n _)) as H.
  assert (Hc : forall j, match comments j with PCut => False | _ => True end).
  { intros j. unfold comments, repeat0. generalize (S (length j)) as n. intros n. revert j. induction n as [|n IH]; intros j; cbn [repeat_loop]; [exact I|].
    assert (Hl : match comment_line j with PCut => False | _ => True end).
    { unfold comment_line, pbind. destruct (space0 j) as [u r| | | |] eqn:E1; auto; [|unfold space0, pmap, pbind, take_while in E1; destruct (span is_space j); cbn in E1; discriminate E1].
      destruct (tag (tx "///") r) as [u2 r2| | | |] eqn:E2; auto; [|destruct (tag_cases (tx "///") r) as [E|(q & E)]; congruence].
      destruct (space0 r2) as [u3 r3| | | |] eqn:E3; auto; [|unfold space0, pmap, pbind, take_while in E3; destruct (span is_space r2); cbn in E3; discriminate E3].
      destruct (take_till 0 (fun c => c =? 10) r3) as [u4 r4| | | |] eqn:E4; auto; [|unfold take_till, take_while in E4; destruct (span _ r3); cbn in E4; discriminate E4].
      destruct r4 as [|y r4]; cbn; auto. destruct (y =? 10); exact I. }
    destruct (comment_line j) as [l r| | | |]; auto. destruct (length r =? length j)%nat; auto. specialize (IH r). destruct (repeat_loop n comment_line r); auto. }
  assert (Hw : match ws comments i with PCut => False | _ => True end).
  { unfold ws, multispace0, pmap, pbind, take_while. destruct (span is_mspace i) as [a r]. cbn. apply Hc. }
  unfold pbind at 1. destruct (ws comments i) as [c r| | | |]; try contradiction; try exact I. unfold pbind. destruct r as [|y r]; cbn; [exact I|]. destruct (y =? 10); exact I.
Qed.

(** A source text is accepted, and read as the schema [s], precisely when the grammar says that it writes [s]. *)
Theorem C68_accepts : forall (F : Type) (parse_f64 : str -> option F) (src : str) (s : pschema F), text src ->
  (schema_parse parse_f64 src = Some s <-> wschema parse_f64 src s).
Proof.
  intros F pf src s Ht. pose proof (opening_total src Ht) as Ho. unfold schema_parse, parse_schema. split.
  - unfold pbind at 1, opt. destruct ((pdo c <- ws comments; char 10 ;; pret c) src) as [c r| | | |] eqn:Eo; try discriminate; intros H.
    + apply opening_sound in Eo as (so & -> & Hso). match type of H with match ?X with _ => _ end = _ => destruct X as [s' r'| | | |] eqn:Ed end; try discriminate. destruct r'; [|discriminate]. assert (s' = s) as -> by congruence.
      apply bind_inv in Ed as (ds & r1 & Hds & Ed). apply bind_inv in Ed as (u & r2 & Hm & Ed). apply ret_inv in Ed as [<- ->]. apply mspace_inv in Hm as (b & -> & Hb & _).
      apply defs_sound in Hds as (sd & b1 & -> & Hb1 & Hds). rewrite app_nil_r in *. apply ws_commented; [exact Hso|exact Hds|]. apply white_app; [apply blank_white, Hb1|exact Hb].
    + match type of H with match ?X with _ => _ end = _ => destruct X as [s' r'| | | |] eqn:Ed end; try discriminate. destruct r'; [|discriminate]. assert (s' = s) as -> by congruence.
      apply bind_inv in Ed as (ds & r1 & Hds & Ed). apply bind_inv in Ed as (u & r2 & Hm & Ed). apply ret_inv in Ed as [<- ->]. apply mspace_inv in Hm as (b & -> & Hb & _).
      apply defs_sound in Hds as (sd & b1 & -> & Hb1 & Hds). rewrite app_nil_r in *. apply ws_plain; [exact Hds|apply white_app; [apply blank_white, Hb1|exact Hb]|].
      intros so c rest Hso E. rewrite E, (opening_complete so c rest Hso) in Eo. discriminate.
  - assert (Hend : forall c sd ds b, wdefs pf sd ds b -> White b -> (pdo ds <- repeat0 (pdefinition pf); multispace0 ;; pret (PSchema c ds)) (sd ++ b) = POk (PSchema c ds) []).
    { intros c sd ds b Hds Hb. destruct (defs_complete _ _ _ _ Hds Hb) as (b1 & r & E & Hb1 & Hr). rewrite (bind_ok _ _ _ _ _ Hr). assert (Hm : multispace0 r = POk tt []); [|rewrite (bind_ok _ _ _ _ _ Hm); reflexivity].
      unfold multispace0. apply (map_ok _ _ _ r). rewrite E in Hb. rewrite <- (app_nil_r r) at 1. apply take_ok; [apply white_sp; eapply white_tail, Hb|exact I|lia]. }
    intros Hs. revert Ht Ho. destruct Hs as [so c sd ds b Hso Hds Hb|sd ds b Hds Hb Hno]; intros Ht Ho.
    + rewrite (bind_ok _ _ _ (Some c) (sd ++ b)) by (apply opt_ok, opening_complete, Hso). pose proof (Hend c sd ds b Hds Hb) as E. cbn beta iota in *. rewrite E. reflexivity.
    + rewrite (bind_ok _ _ _ None (sd ++ b)).
      * pose proof (Hend [] sd ds b Hds Hb) as E. cbn beta iota in *. rewrite E. reflexivity.
      * apply opt_back. match type of Ho with match ?X with _ => _ end => destruct X as [c r| | | |] eqn:Eo end; try contradiction; [|reflexivity].
        apply opening_sound in Eo as (so & E & Hso). destruct (Hno so c r Hso E).
Qed.
Print Assumptions C68_accepts.
(** No text writes two different schemas. *)
Theorem C68_unambiguous : forall (F : Type) (parse_f64 : str -> option F) (src : str) (s s' : pschema F), text src ->
  wschema parse_f64 src s -> wschema parse_f64 src s' -> s = s'.
Proof. intros F pf src s s' Ht H H'. apply (C68_accepts F pf src s Ht) in H. apply (C68_accepts F pf src s' Ht) in H'. congruence. Qed.
Print Assumptions C68_unambiguous.
(** A text outside the grammar is rejected with an error: the parser neither hangs nor panics on it. *)
Theorem C68_rejects : forall (F : Type) (parse_f64 : str -> option F) (src : str), text src ->
  (schema_parse parse_f64 src = None <-> forall s, ~ wschema parse_f64 src s).
Proof.
  intros F pf src Ht. split.
  - intros H s Hs. apply (C68_accepts F pf src s Ht) in Hs. congruence.
  - intros H. destruct (schema_parse pf src) as [s|] eqn:E; [|reflexivity]. apply (C68_accepts F pf src s Ht) in E. destruct (H s E).
Qed.
Print Assumptions C68_rejects.

(** A text with an unusual layout: a schema comment, a nested module, blanks and line breaks in strange places, trailing commas, a struct without fields. *)
Definition C68_in : str := tx "
/// the schema

  mod  a{
 use a::b::C;struct  U
  /// two
	///lines
    #[one = 1 , two( three,)]
enum E<T , >  {	A
    ,  /// b
 B  ( u8 @1
 , vec<T >)@7,}}
type X=hash_map<u8	,a::E<X,>>;const K:[u8;3]=[1, 2, 3];".

Definition C68_out : pschema unit := PSchema [tx "the schema"]
  [PModule [] (tx "a")
     [PImport [tx "a"; tx "b"] (Some (tx "C")); PStruct [] [] (tx "U") None FUnit;
      PEnum [tx "two"; tx "lines"] [Attr (tx "one") (ASingle (LInt 1)); Attr (tx "two") (AMulti [Attr (tx "three") AUnit])] (tx "E")
        (Some (Punct [] (tx "T") true))
        (Punct [PVariant [] (tx "A") FUnit None]
           (PVariant [tx "b"] (tx "B") (FUnnamed (Punct [UField (PPrim PrU8) (Some 1)] (UField (PVec (PExternal [] (tx "T") None)) None) false)) (Some 7)) true)];
   PAlias [] (tx "X") None (PHashMap (PPrim PrU8) (PExternal [tx "a"] (tx "E") (Some (Punct [] (PExternal [] (tx "X") None) true))));
   PConst [] (tx "K") (PArray (PPrim PrU8) 3) (LBytes [1; 2; 3])].
Lemma C68_in_text : text C68_in.
Proof. unfold text. apply Forall_forall. intros c Hc. assert (H : forallb (fun c => c <? 55296) C68_in = true) by (vm_compute; reflexivity). rewrite forallb_forall in H. specialize (H c Hc). left. lia. Qed.
Example C68_ex : text C68_in /\ schema_parse (F := unit) (fun _ => None) C68_in = Some C68_out /\ wschema (fun _ : str => @None unit) C68_in C68_out.
Proof.
  assert (H : schema_parse (F := unit) (fun _ => None) C68_in = Some C68_out) by (vm_compute; reflexivity).
  split; [apply C68_in_text|]. split; [exact H|]. apply C68_accepts; [apply C68_in_text|exact H].
Qed.
(** The grammar by itself derives something: [struct A(u8, )]. *)
Example C68_ex_grammar : wschema (fun _ : str => @None unit) (tx "struct A(u8, )") (PSchema [] [PStruct [] [] (tx "A") None (FUnnamed (Punct [] (UField (PPrim PrU8) None) true))]).
Proof.
  change (tx "struct A(u8, )") with ((([] ++ ([] ++ [] ++ [] ++ [] ++ [] ++ w "struct" ++ w " ") ++ w "A" ++ [] ++ [] ++ (w "(" ++ (([] ++ w "u8" ++ []) ++ [] ++ w ",") ++ w " " ++ w ")")) ++ []) ++ []).
  apply ws_plain; [|constructor|].
  - apply wds_cons; [|constructor]. apply (wd_struct _ [] [] [] (w "struct" ++ w " ") (w "A") [] None [] (w "(" ++ (([] ++ w "u8" ++ []) ++ [] ++ w ",") ++ w " " ++ w ")")).
    + apply (whead_intro _ [] [] [] [] [] [] []); try constructor. apply (wattrs_intro _ [] []). constructor.
    + constructor; [repeat constructor|discriminate].
    + exists 65, []. split; [reflexivity|]. split; [unfold upper; lia|constructor].
    + constructor.
    + constructor.
    + apply wf_unnamed. constructor; [|repeat constructor]. apply wl_trailing; [|constructor]. apply (wufield_intro [] (w "u8") (PPrim PrU8) [] None); [apply Forall_nil|apply (wt_prim PrU8)|constructor].
    + discriminate.
  - intros so c rest [b s c' Hb Hc Hne] E. destruct Hc as [|s a t l [b1 b2 l' Hb1 Hb2 Hl]]; [contradiction|]. destruct b as [|x b]; [destruct b1 as [|x b1]; [discriminate|]|].
    + inversion Hb1; subst. assert (115 = x) by (cbn in E; congruence). lia.
    + inversion Hb; subst. assert (115 = x) by (cbn in E; congruence). lia.
Qed.

Definition accepted {F} (parse_f64 : str -> option F) (s : String.string) : Prop := exists v, schema_parse parse_f64 (tx s) = Some v.
Definition rejected {F} (parse_f64 : str -> option F) (s : String.string) : Prop := schema_parse parse_f64 (tx s) = None.
Arguments accepted {F} parse_f64 s%string_scope.
Arguments rejected {F} parse_f64 s%string_scope.
(** White space between tokens is not free: the second text of each pair is the first one with white space added or removed between two tokens. *)
Theorem C68_free_layout_refuted : forall (F : Type) (parse_f64 : str -> option F),
  (accepted parse_f64 "struct A(vec<u8>)" /\ rejected parse_f64 "struct A(vec< u8>)") /\
  (accepted parse_f64 "struct A
" /\ rejected parse_f64 "struct A") /\
  (accepted parse_f64 "struct A {
  /// text
  a: u8
}" /\ rejected parse_f64 "struct A {
  /// text

  a: u8
}") /\
  (accepted parse_f64 "struct A(u8 @1)" /\ rejected parse_f64 "struct A(u8 @ 1)") /\
  (accepted parse_f64 "const A: u8 = 1;" /\ rejected parse_f64 "const A : u8 = 1;") /\
  (accepted parse_f64 "const A: u8 = 1;" /\ rejected parse_f64 "const A: u8 = 1 ;") /\
  (accepted parse_f64 "struct A(hash_map<u8, u8>)" /\ rejected parse_f64 "struct A(hash_map<u8,
  u8>)") /\
  (accepted parse_f64 "#[a]
#[b]
struct A(u8)" /\ rejected parse_f64 "#[a]
 #[b]
struct A(u8)") /\
  (accepted parse_f64 "#[a]
struct A(u8)" /\ rejected parse_f64 "#[a] struct A(u8)").
Proof. intros F pf. unfold accepted, rejected. repeat split; first [eexists; reflexivity|reflexivity]. Qed.
Print Assumptions C68_free_layout_refuted.
