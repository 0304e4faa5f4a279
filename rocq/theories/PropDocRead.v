(** C94, continued: the definition in a page, as a browser shows it, is read back by the parser and the compiler. *)
From Verif Require Import Base Syntax Parser Printer Compiler Meta Tools DocText Html DocPage PropDocPage.
From Verif Require ParserSpec PropParser PropDocText PropGoOut PropDocLinks DocPageEx.
Require Coq.Strings.String.
Import Coq.Strings.String.StringSyntax.
Local Open Scope N_scope.

Lemma places_within {F} (d : sdef F) : forall parent q d', In (q, d') (places parent d) -> d' = d \/ exists c n ds, d = SModule c n ds /\ Within d' ds.
Proof.
  induction d as [c n ds IH|d Hd] using PropGoOut.sdef_ind2; intros parent q d' H.
  - cbn [places] in H. destruct H as [H|H]; [left; congruence|]. right. exists c, n, ds. split; [reflexivity|]. apply in_flat_map in H. destruct H as (x & Hx & H).
    destruct (IH x Hx _ _ _ H) as [->|(c' & n' & sub & -> & Hw)]; [apply here, Hx|]. eapply inner; [exact Hx|exact Hw].
  - left. destruct d; try (exfalso; eapply Hd; reflexivity); cbn [places] in H; try (destruct H as [H|[]]; congruence); destruct H.
Qed.
Lemma places_in {F} (ds : list (sdef F)) parent q d : In (q, d) (flat_map (places parent) ds) -> Within d ds.
Proof.
  intros H. apply in_flat_map in H. destruct H as (x & Hx & H). destruct (places_within x _ _ _ H) as [->|(c & n & sub & -> & Hw)]; [apply here, Hx|eapply inner; [exact Hx|exact Hw]].
Qed.
(** From the text of a schema to its pages and back: what a browser shows as the definition in a page, with a line break, is accepted again, and is the
    definition that the page belongs to (without its comments, which the page has elsewhere).  Constants need a float printer whose texts
    are read back as floats (C83_float_refuted: Rust's is not always). *)
Theorem C94_read_back : forall (F : Type) (parse_f64 : str -> option F) (fmt_f64 : F -> str) esc_u blank markdown size_html chk,
  (forall s, fragment false (markdown s)) -> (forall n t, fragment false (size_html n t)) ->
  forall src s doc defs out stem q ps t,
  ParserSpec.text src -> schema_parse parse_f64 src = Some s -> simplify_schema chk s = Some (doc, defs) ->
  (forall c n ty v, Within (SConst c n ty v) defs -> ParserSpec.Reprintable fmt_f64 parse_f64 v) ->
  In (q, ps) (schema_files fmt_f64 esc_u blank markdown size_html out stem doc defs) ->
  In ([], t) (found (tx "pre class=""item-definition my-2""") (page_text ps)) ->
  exists d s', Within d defs /\ In (q, d) (flat_map (places (out ++ [stem; stem])) defs) /\
    schema_parse parse_f64 (t ++ [10]) = Some s' /\ simplify_schema chk s' = Some ([], [bare d]).
Proof.
  intros F pf ff eu blank markdown size_html chk Hm Hs src s doc defs out stem q ps t Ht Hp Hsim Hl Hin Hf.
  destruct (C94_pages F ff eu blank markdown size_html Hm Hs out stem doc defs) as (index & pages & E & _ & (_ & Hi & _) & Hall). rewrite E in Hin. destruct Hin as [Hin|Hin].
  { injection Hin as _ <-. rewrite Hi in Hf. destruct Hf. }
  apply PropDocLinks.Forall2_in in Hall. destruct Hall as [Hall _]. destruct (Hall _ Hin) as ([q' d] & Hd & Hq & _ & x & Hx & (_ & Hsh & _)). cbn [fst snd] in *. subst q'.
  rewrite Hsh in Hf. pose proof (places_in _ _ _ _ Hd) as Hw. exists d.
  assert (Ht' : shown_text ff eu d = Some t).
  { assert (Hsome : c_shown x = some (shown_text ff eu d)).
    { destruct d; cbn [contents_of] in Hx; try discriminate Hx; assert (Ex : x = match Some x with Some y => y | None => x end) by reflexivity; rewrite <- Hx in Ex; rewrite Ex; reflexivity. }
    rewrite Hsome in Hf. destruct (shown_text ff eu d) as [u|]; cbn [some map] in Hf; [|destruct Hf]. destruct Hf as [Hf|[]]. congruence. }
  destruct (PropDocText.C83_shown_is_definition_partial F pf ff eu chk src s doc defs d t Ht Hp Hsim Hw Ht') as (s' & H1 & H2).
  - intros c n ty v ->. eapply Hl. exact Hw.
  - exists s'. auto.
Qed.
Print Assumptions C94_read_back.

(** A schema that meets the hypotheses, with a type whose angle brackets are escaped in the page. *)
Definition read_src : str := tx "/// Sample.
struct A<T> { a: vec<T>, b: [u8; 2] @4 }
".
Definition read_defs : list (sdef unit) :=
  [SStruct [tx "Sample."] (tx "A") [tx "T"] (SFields SKNamed [SField [] (tx "a") (SVec (SExternal [] (tx "T") [])) 1; SField [] (tx "b") (SArray (SPrim PrU8) 2) 4])].
Definition read_files : list (path * list piece) :=
  schema_files (fun _ => []) (fun _ => false) (fun _ => false) DocPageEx.ex_markdown DocPageEx.ex_size [] (tx "x") [] read_defs.
Example C94_read_ex : ParserSpec.text read_src /\ (exists s, schema_parse (F := unit) (fun _ => None) read_src = Some s /\ simplify_schema true s = Some ([], read_defs)) /\
  (forall c n ty v, Within (SConst c n ty v) read_defs -> ParserSpec.Reprintable (fun _ => []) (fun _ => None) v) /\
  (exists q ps t, In (q, ps) read_files /\ In ([], t) (found (tx "pre class=""item-definition my-2""") (page_text ps)) /\ t = tx "struct A<T> {
    a: vec<T> @1,
    b: [u8; 2] @4,
}").
Proof.
  split; [unfold read_src; apply PropParser.tx_text; vm_compute; reflexivity|]. split; [eexists; split; vm_compute; reflexivity|]. split.
  - intros c n ty v H. exfalso. inversion H as [ds K E|c' n' sub ds K _ E]; subst; destruct K as [K|[]]; discriminate K.
  - eexists. eexists. eexists. split; [right; left; reflexivity|]. split; [|reflexivity]. vm_compute. left. reflexivity.
Qed.
