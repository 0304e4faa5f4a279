(** C94: documentation pages are well-formed HTML and show the schema's names, types and values exactly. *)
From Verif Require Import Base Syntax Parser Printer Compiler Meta Tools DocText Html DocPage.
From Verif Require PropGoOut.
Require Import ZifyN ZifyBool.
Require Coq.Strings.String.
Import Coq.Strings.String.StringSyntax.
Local Open Scope N_scope.

(** * The reader *)
Lemma run_app a : forall s b, run s (a ++ b) = (fst (run s a) ++ fst (run (snd (run s a)) b), snd (run (snd (run s a)) b)).
Proof.
  induction a as [|c a IH]; intros s b.
  - cbn [app run fst snd]. destruct (run s b); reflexivity.
  - cbn [app run]. destruct (step s c) as [x s1]. rewrite IH. destruct (run s1 a) as [y s2]. cbn [fst snd]. rewrite app_assoc. reflexivity.
Qed.
Lemma run_data s : run Data (escape s) = (map Chr s, Data).
Proof.
  induction s as [|c s IH]; [reflexivity|]. unfold escape in *. cbn [map concat]. rewrite run_app.
  assert (E : run Data (escape_char c) = ([Chr c], Data)).
  { unfold escape_char. destruct (c =? 34) eqn:E1; [replace c with 34 by lia; reflexivity|]. destruct (c =? 38) eqn:E2; [replace c with 38 by lia; reflexivity|].
    destruct (c =? 39) eqn:E3; [replace c with 39 by lia; reflexivity|]. destruct (c =? 60) eqn:E4; [replace c with 60 by lia; reflexivity|].
    destruct (c =? 62) eqn:E5; [replace c with 62 by lia; reflexivity|]. cbn [run step]. rewrite E4, E2. reflexivity. }
  rewrite E. cbn [fst snd]. rewrite IH. reflexivity.
Qed.
Lemma run_quote s : forall t, run (InQuote t) (escape s) = ([], InQuote (t ++ s)).
Proof.
  induction s as [|c s IH]; intros t; [cbn; rewrite app_nil_r; reflexivity|]. unfold escape in *. cbn [map concat]. rewrite run_app.
  assert (E : run (InQuote t) (escape_char c) = ([], InQuote (t ++ [c]))).
  { unfold escape_char. destruct (c =? 34) eqn:E1; [replace c with 34 by lia; reflexivity|]. destruct (c =? 38) eqn:E2; [replace c with 38 by lia; reflexivity|].
    destruct (c =? 39) eqn:E3; [replace c with 39 by lia; reflexivity|]. destruct (c =? 60) eqn:E4; [replace c with 60 by lia; reflexivity|].
    destruct (c =? 62) eqn:E5; [replace c with 62 by lia; reflexivity|]. cbn [run step]. rewrite E1, E2. reflexivity. }
  rewrite E. cbn [fst snd]. rewrite IH. rewrite <- app_assoc. reflexivity.
Qed.
Lemma nest_app a : forall st b, nest st (a ++ b) = match nest st a with Some st' => nest st' b | None => None end.
Proof.
  induction a as [|x a IH]; intros st b; [reflexivity|]. destruct x as [c|t]; cbn [app nest]; [apply IH|].
  destruct t as [|c t]; [cbn; apply IH|]. destruct (N.eq_dec c 47) as [->|Hc].
  - destruct st as [|m st]; [reflexivity|]. destruct (str_eqb m t); [apply IH|reflexivity].
  - assert (E : forall l st, nest st (Tag (c :: t) :: l) = if void (tag_name (c :: t)) then nest st l else nest (tag_name (c :: t) :: st) l).
    { intros l st0. cbn [nest]. destruct c as [|p]; [reflexivity|]. repeat (destruct p as [p|p|]; try reflexivity). congruence. }
    change (nest st (Tag (c :: t) :: a ++ b) = match nest st (Tag (c :: t) :: a) with Some st' => nest st' b | None => None end).
    rewrite !E. destruct (void _); apply IH.
Qed.
Lemma nest_chr s st b : nest st (map Chr s ++ b) = nest st b.
Proof. induction s as [|c s IH]; [reflexivity|exact IH]. Qed.
Lemma find_chr p s b : find p (map Chr s ++ b) = find p b.
Proof. induction s as [|c s IH]; [reflexivity|exact IH]. Qed.
Lemma until_chr s b : text_until (map Chr s ++ b) = s ++ text_until b.
Proof. induction s as [|c s IH]; [reflexivity|]. cbn [map app text_until]. f_equal. exact IH. Qed.

(** * Blocks *)
(** What is looked for in a page. *)
Inductive query := QTitle | QShown | QSpan | QNext | QRow | QStyle | QLink.
Definition tag_of (q : query) : str :=
  match q with
  | QTitle => tx "title" | QShown => tx "pre class=""item-definition my-2""" | QSpan => tx "span class="""
  | QNext => tx "code class=""font-bold""" | QRow => tx "a class=""text-lg name-"
  | QStyle => tx "link rel=""stylesheet"" href=""" | QLink => tx "a href="""
  end.
Section Reader.
(** Whether the links of a page are looked for: comments can have links, too. *)
Variable lk : bool.
Definition looked (q : query) : Prop := q = QLink -> lk = true.
(** HTML made from markdown: it is read on its own, closes what it opens and has none of the tags of the templates that are looked for. *)
Definition fragment (h : str) : Prop := exists l, run Data h = (l, Data) /\ (forall open, nest open l = Some open) /\ forall q t, looked q -> In (Tag t) l -> strip (tag_of q) t = None.

(** The pieces are read from data to data, with the elements [o1] open before and [o2] after (and any others around), and add [A q] to what is found. *)
Definition block (o1 : list str) (ps : list piece) (o2 : list str) (A : query -> list (str * str)) : Prop :=
  exists l, run Data (page_text ps) = (l, Data) /\ (forall open, nest (o1 ++ open) l = Some (o2 ++ open)) /\ forall q r, looked q -> find (tag_of q) (l ++ r) = A q ++ find (tag_of q) r.
Lemma block_nil o : block o [] o (fun _ => []).
Proof. exists []. split; [reflexivity|]. split; reflexivity. Qed.
Lemma page_app a b : page_text (a ++ b) = page_text a ++ page_text b.
Proof. unfold page_text. rewrite map_app, concat_app. reflexivity. Qed.
Lemma block_app o1 o2 o3 a b A B : block o1 a o2 A -> block o2 b o3 B -> block o1 (a ++ b) o3 (fun q => A q ++ B q).
Proof.
  intros (l & H1 & H2 & H3) (m & G1 & G2 & G3). exists (l ++ m). rewrite page_app, run_app, H1. cbn [fst snd]. rewrite G1. split; [reflexivity|]. split.
  - intros st. rewrite nest_app, H2. apply G2.
  - intros q r Hq. rewrite <- !app_assoc, H3, G3 by exact Hq. reflexivity.
Qed.
Lemma block_frame o ps A : block [] ps [] A -> block o ps o A.
Proof. intros (l & H1 & H2 & H3). exists l. split; [exact H1|]. split; [intros open; exact (H2 (o ++ open))|exact H3]. Qed.
Lemma block_flat {X} (f : X -> list piece) (A : X -> query -> list (str * str)) o l : (forall x, In x l -> block [] (f x) [] (A x)) -> block o (flat_map f l) o (fun q => flat_map (fun x => A x q) l).
Proof.
  intros H. apply block_frame. induction l as [|x l IH]; [apply block_nil|]. cbn [flat_map]. eapply block_app; [apply H; left; reflexivity|]. apply IH. intros y Hy. apply H. right. exact Hy.
Qed.
Lemma block_eq o1 o2 ps A B : block o1 ps o2 A -> (forall q, A q = B q) -> block o1 ps o2 B.
Proof. intros (l & H1 & H2 & H3) E. exists l. split; [exact H1|]. split; [exact H2|]. intros q r Hq. rewrite H3, E by exact Hq. reflexivity. Qed.
End Reader.
Arguments block_nil {lk}.
Arguments block_app {lk}.
Arguments block_frame {lk}.
Arguments block_flat {lk X}.
Arguments block_eq {lk}.
Lemma find_fragment l p : (forall t, In (Tag t) l -> strip p t = None) -> forall r, find p (l ++ r) = find p r.
Proof.
  induction l as [|x l IH]; intros H r; [reflexivity|]. destruct x as [c|t]; cbn [app find]; [apply IH|rewrite (H t (or_introl eq_refl)); apply IH]; intros t' Ht; apply H; right; exact Ht.
Qed.
(** Reading pieces one by one. *)
Lemma read_nil st : run st (page_text []) = ([], st). Proof. reflexivity. Qed.
Lemma read_T s st ps l0 s0 l st' : run st s = (l0, s0) -> run s0 (page_text ps) = (l, st') -> run st (page_text (T s :: ps)) = (l0 ++ l, st').
Proof. intros H G. change (page_text (T s :: ps)) with (s ++ page_text ps). rewrite run_app, H. cbn [fst snd]. rewrite G. reflexivity. Qed.
Lemma read_data s ps l st' : run Data (page_text ps) = (l, st') -> run Data (page_text (E s :: ps)) = (map Chr s ++ l, st').
Proof. intros G. change (page_text (E s :: ps)) with (escape s ++ page_text ps). rewrite run_app, run_data. cbn [fst snd]. rewrite G. reflexivity. Qed.
Lemma read_quote t s ps l st' : run (InQuote (t ++ s)) (page_text ps) = (l, st') -> run (InQuote t) (page_text (E s :: ps)) = (l, st').
Proof. intros G. change (page_text (E s :: ps)) with (escape s ++ page_text ps). rewrite run_app, run_quote. cbn [fst snd]. rewrite G. reflexivity. Qed.
Lemma read_M h lh ps l st' : run Data h = (lh, Data) -> run Data (page_text ps) = (l, st') -> run Data (page_text (M h :: ps)) = (lh ++ l, st').
Proof. intros H G. change (page_text (M h :: ps)) with (h ++ page_text ps). rewrite run_app, H. cbn [fst snd]. rewrite G. reflexivity. Qed.
Lemma quote_T s : forall t, forallb (fun c => negb ((c =? 34) || (c =? 38))) s = true -> run (InQuote t) s = ([], InQuote (t ++ s)).
Proof.
  induction s as [|c s IH]; intros t H; [cbn; rewrite app_nil_r; reflexivity|]. cbn [forallb] in H. apply andb_prop in H. destruct H as [Hc H].
  cbn [run step]. destruct (c =? 34); [discriminate|]. destruct (c =? 38); [discriminate|]. rewrite (IH _ H), <- app_assoc. reflexivity.
Qed.
Lemma quote_end t : run (InQuote t) (tx """>") = ([Tag (t ++ [34])], Data).
Proof. reflexivity. Qed.
Lemma tag_T s : forall t, forallb (fun c => negb ((c =? 34) || (c =? 62))) s = true -> run (InTag t) s = ([], InTag (t ++ s)).
Proof.
  induction s as [|c s IH]; intros t H; [cbn; rewrite app_nil_r; reflexivity|]. cbn [forallb] in H. apply andb_prop in H. destruct H as [Hc H].
  cbn [run step]. destruct (c =? 34); [discriminate|]. destruct (c =? 62); [discriminate|]. rewrite (IH _ H), <- app_assoc. reflexivity.
Qed.
Lemma quote_out t : run (InQuote t) [34] = ([], InTag (t ++ [34])).
Proof. reflexivity. Qed.
Lemma tag_end t : run (InTag t) [62] = ([Tag t], Data).
Proof. reflexivity. Qed.
Ltac read1 :=
  first [ apply read_nil | apply read_data | apply read_quote
        | eapply read_M; [eassumption|]
        | eapply read_T; [apply quote_T; vm_compute; reflexivity|]
        | eapply read_T; [apply quote_end|]
        | eapply read_T; [apply quote_out|]
        | eapply read_T; [apply tag_T; vm_compute; reflexivity|]
        | eapply read_T; [apply tag_end|]
        | eapply read_T; [match goal with |- run ?s ?t = _ => let v := eval vm_compute in (run s t) in exact (@eq_refl _ v <: run s t = v) end|] ].
Ltac nest1 :=
  lazymatch goal with
  | |- nest ?o (map Chr _ ++ _) = _ => rewrite nest_chr
  | |- nest ?o [] = _ => reflexivity
  | H : forall open, nest open ?l = Some open |- nest ?o (?l ++ _) = _ => rewrite nest_app, H
  | |- nest ?o (?a ++ ?b) = _ => rewrite (nest_app a o b); let v := eval vm_compute in (nest o a) in change (nest o a) with v; cbv iota beta
  | |- nest ?o ?a = _ => reflexivity
  end.
Ltac norm_tag := match goal with |- context [tag_of ?q] => let v := eval vm_compute in (tag_of q) in change (tag_of q) with v in * end.
Ltac find1 :=
  match goal with
  | H : forall r, find _ (?l ++ r) = _ |- context [find _ (?l ++ _)] => rewrite H
  | _ => rewrite find_chr
  | _ => rewrite until_chr
  | _ => progress cbn [app find text_until strip N.eqb Pos.eqb]
  end.
Ltac finds := repeat find1; rewrite ?app_nil_r, <- ?app_assoc; reflexivity.
Ltac leaf :=
  eexists; split; [repeat read1|split;
    [intros open; match goal with |- nest ([] ++ open) _ = _ => change ([] ++ open) with open | |- nest ?x _ = _ => let v := eval cbn [app] in x in change x with v end; repeat nest1
    |let q := fresh "q" in let r := fresh "r" in intros q r; rewrite <- ?app_assoc;
     let Hq := fresh "Hq" in intros Hq;
     repeat match goal with H : forall q t, looked _ q -> In (Tag t) ?l -> strip (tag_of q) t = None |- _ =>
       let HF := fresh in pose proof (find_fragment l (tag_of q) (fun t => H q t Hq)) as HF; clear H end; clear Hq;
     destruct q; norm_tag; finds]].
Ltac to o A := refine (block_app _ o _ _ _ A _ _ _); [leaf|].
Ltac fin := refine (block_eq _ _ _ _ _ _ _); [|intros []].
Notation none := (fun _ : query => @nil (str * str)).
Definition span (cls s : str) : str * str := (cls ++ [34], s).
Definition style (u : str) : str * str := (u ++ tx "assets/style.css"" /", [10; 10; 32; 32; 32; 32]).
Definition titled (u t : str) (q : query) : list (str * str) := match q with QTitle => [([], t ++ tx " - Mabo")] | QStyle => [style u] | _ => [] end.
Section Mode.
Variable lk : bool.
Local Notation block := (block lk).
Local Notation fragment := (fragment lk).
Definition ups (n : nat) : str := concat (repeat (tx "../") n).
Definition crumb_found (p : list str) (k : nat) : list (str * str) :=
  flat_map (fun '(i, s) => [(ups (length p - i - 1) ++ tx "index.html""", s)]) (combine (seq 0 k) p).
Definition links (l : list (str * str)) (q : query) : list (str * str) := match q with QLink => l | _ => [] end.

Lemma base_head_split u t : block [] [T (tx "<!DOCTYPE html>
<html lang=""en"">
  <head>
    <meta charset=""utf-8"" />
    <meta name=""viewport"" content=""width=device-width, initial-scale=1"" />

    
    <link rel=""stylesheet"" href="""); E u;
   T (tx "assets/style.css"); T [34]; T (tx " /"); T [62]; T (tx "

    <title>"); E t; T (tx " - Mabo</title>
  </head>
  <body>
    <nav>
    </nav>
    <main>")] [tx "main"; tx "body"; tx "html"] (titled u t).
Proof. leaf. Qed.
Lemma base_head u t : block [] [T (tx "<!DOCTYPE html>
<html lang=""en"">
  <head>
    <meta charset=""utf-8"" />
    <meta name=""viewport"" content=""width=device-width, initial-scale=1"" />

    
    <link rel=""stylesheet"" href="""); E u;
   T (tx "assets/style.css"" />

    <title>"); E t; T (tx " - Mabo</title>
  </head>
  <body>
    <nav>
    </nav>
    <main>")] [tx "main"; tx "body"; tx "html"] (titled u t).
Proof. exact (base_head_split u t). Qed.
Lemma base_tail : block [tx "main"; tx "body"; tx "html"] [T (tx "
    </main>
  </body>
</html>")] [] none.
Proof. leaf. Qed.
Lemma base_block up t ps A : block [] ps [] A -> block [] (base_page up t ps) [] (fun q => titled (ups up) t q ++ A q).
Proof.
  intros H. unfold base_page. eapply block_eq; [eapply block_app; [apply base_head|]; eapply block_app; [apply block_frame, H|apply base_tail]|].
  intros q. cbn beta. rewrite app_nil_r. reflexivity.
Qed.
Lemma crumb_block u p : block [] [T (tx "<a href="""); E u; T (tx "index.html"">"); E p; T (tx "</a>::")] [] (links [(u ++ tx "index.html""", p)]).
Proof. leaf. Qed.
Lemma flat_none {X} (l : list X) : flat_map (fun _ => @nil (str * str)) l = [].
Proof. induction l; [reflexivity|assumption]. Qed.
Lemma flat_links {X} (f : X -> list (str * str)) l q : flat_map (fun x => links (f x) q) l = links (flat_map f l) q.
Proof. destruct q; first [reflexivity|apply flat_none]. Qed.
Lemma crumbs_block p k o : block o (crumbs_pieces p k) o (links (crumb_found p k)).
Proof.
  unfold crumbs_pieces, crumb_found. eapply block_eq; [apply block_flat with (A := fun '(i, s) => links [(ups (length p - i - 1) ++ tx "index.html""", s)])|].
  - intros [i s] _. apply crumb_block.
  - intros q. rewrite <- flat_links. induction (combine (seq 0 k) p) as [|[i s] l IH]; [reflexivity|]. cbn [flat_map]. rewrite IH. reflexivity.
Qed.

(** * The pages *)
Section Blocks.
Context {F : Type}.
Variable fmt_f64 : F -> str.
Variable esc_u : N -> bool.
Variable blank : str -> bool.
Variable markdown : str -> str.
Variable size_html : nat -> sty -> str.
Hypothesis Hm : forall s, fragment (markdown s).
Hypothesis Hs : forall n t, fragment (size_html n t).
Ltac frag h := destruct h as (? & ? & ? & ?).

Definition headed (p : list str) (cls n : str) (shown : str) (q : query) : list (str * str) :=
  match q with QLink => crumb_found p (length p) | QShown => [([], shown)] | QSpan => [span (tx "name-" ++ cls) n] | _ => [] end.
Lemma head_block word cls p n shown c :
  In (word, cls) [(tx "Struct", tx "struct"); (tx "Enum", tx "enum"); (tx "Alias", tx "alias"); (tx "Constant", tx "const")] ->
  block [] (head_pieces markdown word cls p n shown c) [] (headed p cls n (match shown with Some s => s | None => [] end)).
Proof.
  intros Hin. unfold head_pieces, content_pieces. generalize (match shown with Some s => s | None => [] end). intros sh. generalize (merge_comments c). intros co. frag (Hm co).
  destruct Hin as [Hin|[Hin|[Hin|[Hin|[]]]]]; injection Hin as <- <-.
  - refine (block_eq _ _ _ (fun q => none q ++ links (crumb_found p (length p)) q ++ headed [] (tx "struct") n sh q) _ _ _); [|intros []; cbn; rewrite ?app_nil_r; reflexivity].
    refine (block_app _ [tx "h2"; tx "div"] _ _ _ none _ _ _); [leaf|]. eapply block_app; [apply crumbs_block|leaf].
  - refine (block_eq _ _ _ (fun q => none q ++ links (crumb_found p (length p)) q ++ headed [] (tx "enum") n sh q) _ _ _); [|intros []; cbn; rewrite ?app_nil_r; reflexivity].
    refine (block_app _ [tx "h2"; tx "div"] _ _ _ none _ _ _); [leaf|]. eapply block_app; [apply crumbs_block|leaf].
  - refine (block_eq _ _ _ (fun q => none q ++ links (crumb_found p (length p)) q ++ headed [] (tx "alias") n sh q) _ _ _); [|intros []; cbn; rewrite ?app_nil_r; reflexivity].
    refine (block_app _ [tx "h2"; tx "div"] _ _ _ none _ _ _); [leaf|]. eapply block_app; [apply crumbs_block|leaf].
  - refine (block_eq _ _ _ (fun q => none q ++ links (crumb_found p (length p)) q ++ headed [] (tx "const") n sh q) _ _ _); [|intros []; cbn; rewrite ?app_nil_r; reflexivity].
    refine (block_app _ [tx "h2"; tx "div"] _ _ _ none _ _ _); [leaf|]. eapply block_app; [apply crumbs_block|leaf].
Qed.
(** A field of a struct or of a variant. *)
Definition field_spans (f : sfield) : list (str * str) :=
  [span (tx "field-name") (sf_name f); span (tx "field-type") (dp_type (sf_ty f)); span (tx "field-id") (64 :: dec_str (sf_id f))].
Definition spans (l : list (str * str)) (q : query) : list (str * str) := match q with QSpan => l | _ => [] end.
Lemma size_struct_block t o : block o (size_struct_pieces size_html t) o none.
Proof. apply block_frame. unfold size_struct_pieces. destruct (wire_size t); [|apply block_nil]. frag (Hs 10 t). leaf. Qed.
Lemma size_enum_block t o : block o (size_enum_pieces size_html t) o none.
Proof. apply block_frame. unfold size_enum_pieces. destruct (wire_size t); [|apply block_nil]. frag (Hs 16 t). leaf. Qed.
Lemma struct_field_block f : block [] (struct_field_pieces markdown size_html f) [] (spans (field_spans f)).
Proof.
  unfold struct_field_pieces, content_pieces, field_spans. generalize (sf_name f) (dp_type (sf_ty f)) (dec_str (sf_id f)) (merge_comments (sf_comment f)). intros n t i c. frag (Hm c).
  eapply block_eq.
  - refine (block_app _ [tx "li"] _ _ _ (spans [span (tx "field-name") n; span (tx "field-type") t; span (tx "field-id") (64 :: i)]) none _ _); [leaf|].
    refine (block_app _ [tx "li"] _ _ _ none none _ _); [apply size_struct_block|leaf].
  - intros []; reflexivity.
Qed.
Lemma enum_field_block f : block [] (enum_field_pieces markdown size_html f) [] (spans (field_spans f)).
Proof.
  unfold enum_field_pieces, content_pieces, field_spans. generalize (sf_name f) (dp_type (sf_ty f)) (dec_str (sf_id f)) (merge_comments (sf_comment f)). intros n t i c. frag (Hm c).
  eapply block_eq.
  - refine (block_app _ [tx "li"] _ _ _ (spans [span (tx "field-name") n; span (tx "field-type") t; span (tx "field-id") (64 :: i)]) none _ _); [leaf|].
    refine (block_app _ [tx "li"] _ _ _ none none _ _); [apply size_enum_block|leaf].
  - intros []; reflexivity.
Qed.
Lemma flat_spans {X} (f : X -> list (str * str)) l q : flat_map (fun x => spans (f x) q) l = spans (flat_map f l) q.
Proof. destruct q; first [reflexivity|apply flat_none]. Qed.
Lemma flat_block {X} (g : X -> list piece) (f : X -> list (str * str)) o l : (forall x, In x l -> block [] (g x) [] (spans (f x))) -> block o (flat_map g l) o (spans (flat_map f l)).
Proof. intros H. eapply block_eq; [apply block_flat with (A := fun x => spans (f x)); exact H|]. intros q. apply flat_spans. Qed.

(** The identifier that a struct page offers for the next field. *)
Definition next_shown (fs : sfields) : list (str * str) := match next_field_id false fs with Some (Some i) => [([], dec_str i)] | _ => [] end.
Definition nexts (l : list (str * str)) (q : query) : list (str * str) := match q with QNext => l | _ => [] end.
Lemma next_block fs o : block o (match next_field_id false fs with
     | Some (Some i) => [T (tx "
    <p>The next free ID is <code class=""font-bold"">"); E (dec_str i); T (tx "</code></p>")]
     | _ => []
     end) o (nexts (next_shown fs)).
Proof.
  apply block_frame. unfold next_shown. destruct (next_field_id false fs) as [[i|]|]; [|eapply block_eq; [apply block_nil|intros []; reflexivity]..].
  generalize (dec_str i). intros s. leaf.
Qed.
Definition struct_found (p : list str) (n : str) (shown : option str) (fs : sfields) (q : query) : list (str * str) :=
  match q with
  | QTitle => [([], n ++ tx " - Mabo")]
  | QShown => [([], match shown with Some s => s | None => [] end)]
  | QSpan => span (tx "name-struct") n :: flat_map field_spans (ss_fields fs)
  | QNext => next_shown fs
  | QStyle => [style (ups (length p))]
  | QLink => crumb_found p (length p)
  | QRow => []
  end.
Lemma struct_block p c n g fs : block [] (struct_page fmt_f64 esc_u markdown size_html p c n g fs) [] (struct_found p n (shown_text fmt_f64 esc_u (SStruct c n g fs)) fs).
Proof.
  unfold struct_page. generalize (shown_text fmt_f64 esc_u (SStruct c n g fs)). intros sh. eapply block_eq.
  - apply base_block. eapply block_app; [apply head_block; left; reflexivity|].
    refine (block_app _ [tx "div"; tx "div"] _ _ _ none _ _ _); [leaf|]. eapply block_app; [apply next_block|].
    refine (block_app _ [tx "ul"; tx "div"] _ _ _ none _ _ _); [leaf|]. eapply block_app; [apply flat_block with (f := field_spans); intros f _; apply struct_field_block|].
    instantiate (1 := none). leaf.
  - intros []; cbn; rewrite ?app_nil_r; reflexivity.
Qed.

(** The fields of a variant are listed unless it is a unit. *)
Definition variant_spans (v : svariant) : list (str * str) :=
  span (tx "variant-name") (sv_name v) :: span (tx "variant-id") (64 :: dec_str (sv_id v)) ::
  match ss_kind (sv_fields v) with SKUnit => [] | _ => flat_map field_spans (ss_fields (sv_fields v)) end.
Lemma variant_fields_block fs o : block o (variant_fields_pieces markdown size_html fs) o (spans (match ss_kind fs with SKUnit => [] | _ => flat_map field_spans (ss_fields fs) end)).
Proof.
  apply block_frame. unfold variant_fields_pieces. destruct (ss_kind fs); [| |eapply block_eq; [apply block_nil|intros []; reflexivity]].
  all: eapply block_eq; [refine (block_app _ [tx "ul"; tx "div"] _ _ _ none _ _ _); [leaf|]; eapply block_app; [apply flat_block with (f := field_spans); intros f _; apply enum_field_block|]; instantiate (1 := none); leaf|].
  all: intros []; cbn; rewrite ?app_nil_r; reflexivity.
Qed.
Lemma variant_block v : block [] (variant_pieces markdown size_html v) [] (spans (variant_spans v)).
Proof.
  unfold variant_pieces, content_pieces, variant_spans. generalize (sv_name v) (dec_str (sv_id v)) (merge_comments (sv_comment v)). intros n i c. frag (Hm c). eapply block_eq.
  - refine (block_app _ [tx "li"] _ _ _ (spans [span (tx "variant-name") n; span (tx "variant-id") (64 :: i)]) _ _ _); [leaf|].
    eapply block_app; [apply variant_fields_block|]. instantiate (1 := none). leaf.
  - intros []; cbn; rewrite ?app_nil_r; reflexivity.
Qed.
Definition enum_found (p : list str) (n : str) (shown : option str) (vs : list svariant) (q : query) : list (str * str) :=
  match q with
  | QTitle => [([], n ++ tx " - Mabo")]
  | QShown => [([], match shown with Some s => s | None => [] end)]
  | QSpan => span (tx "name-enum") n :: flat_map variant_spans vs
  | QStyle => [style (ups (length p))]
  | QLink => crumb_found p (length p)
  | QNext | QRow => []
  end.
Lemma enum_block p c n g vs : block [] (enum_page fmt_f64 esc_u markdown size_html p c n g vs) [] (enum_found p n (shown_text fmt_f64 esc_u (SEnum c n g vs)) vs).
Proof.
  unfold enum_page. generalize (shown_text fmt_f64 esc_u (SEnum c n g vs)). intros sh. eapply block_eq.
  - apply base_block. eapply block_app; [apply head_block; right; left; reflexivity|].
    refine (block_app _ [tx "ul"; tx "div"] _ _ _ none _ _ _); [leaf|]. eapply block_app; [apply flat_block with (f := variant_spans); intros v _; apply variant_block|].
    instantiate (1 := none). leaf.
  - intros []; cbn; rewrite ?app_nil_r; reflexivity.
Qed.
Definition plain_found (p : list str) (cls n : str) (shown : option str) (q : query) : list (str * str) :=
  match q with
  | QTitle => [([], n ++ tx " - Mabo")]
  | QShown => [([], match shown with Some s => s | None => [] end)]
  | QSpan => [span (tx "name-" ++ cls) n]
  | QStyle => [style (ups (length p))]
  | QLink => crumb_found p (length p)
  | QNext | QRow => []
  end.
Lemma alias_block p c n g t : block [] (alias_page fmt_f64 esc_u markdown p c n g t) [] (plain_found p (tx "alias") n (shown_text fmt_f64 esc_u (SAlias c n g t))).
Proof.
  unfold alias_page. generalize (shown_text fmt_f64 esc_u (SAlias c n g t)). intros sh. eapply block_eq.
  - apply base_block. eapply block_app; [apply head_block; right; right; left; reflexivity|]. instantiate (1 := none). leaf.
  - intros []; cbn; rewrite ?app_nil_r; reflexivity.
Qed.
Lemma const_block p c n t v : block [] (const_page fmt_f64 esc_u markdown p c n t v) [] (plain_found p (tx "const") n (shown_text fmt_f64 esc_u (SConst c n t v))).
Proof.
  unfold const_page. generalize (shown_text fmt_f64 esc_u (SConst c n t v)). intros sh. eapply block_eq.
  - apply base_block. eapply block_app; [apply head_block; right; right; right; left; reflexivity|]. instantiate (1 := none). leaf.
  - intros []; cbn; rewrite ?app_nil_r; reflexivity.
Qed.
(** The rows of the tables: what is linked, and its name. *)
Definition row_found (k : kind) (d : sdef F) : list (str * str) :=
  match in_table k d with
  | Some (n, _) => [(kind_class k ++ tx """ href=""" ++ fst (kind_file k) ++ n ++ snd (kind_file k) ++ [34], n)]
  | None => []
  end.
Definition rows (l : list (str * str)) (q : query) : list (str * str) := match q with QRow => l | _ => [] end.
Lemma row_block k d : block [] (row_pieces blank markdown k d) [] (rows (row_found k d)).
Proof.
  unfold row_pieces, row_found, short_pieces. destruct (in_table k d) as [[n c]|]; [|eapply block_eq; [apply block_nil|intros []; reflexivity]].
  generalize (first_comment blank c). intros co. frag (Hm co). destruct k; leaf.
Qed.
Lemma flat_rows {X} (f : X -> list (str * str)) l q : flat_map (fun x => rows (f x) q) l = rows (flat_map f l) q.
Proof. destruct q; first [reflexivity|apply flat_none]. Qed.
Lemma table_block ds k : block [] (table_pieces blank markdown ds k) [] (rows (flat_map (row_found k) ds)).
Proof.
  unfold table_pieces. eapply block_eq.
  - refine (block_app _ [tx "table"; tx "div"] _ _ _ none _ _ _); [destruct k; leaf|].
    eapply block_app; [apply block_flat with (A := fun d => rows (row_found k d)); intros d _; apply row_block|]. instantiate (1 := none). leaf.
  - intros q. transitivity (flat_map (fun d => rows (row_found k d) q) ds); [apply app_nil_r|apply flat_rows].
Qed.
Definition kinds := [KModule; KStruct; KEnum; KAlias; KConst].
Definition rows_found (ds : list (sdef F)) : list (str * str) := flat_map (fun k => flat_map (row_found k) ds) kinds.
Lemma tables_block ds : block [] (tables_pieces blank markdown ds) [] (rows (rows_found ds)).
Proof.
  unfold tables_pieces. eapply block_eq; [apply block_flat with (A := fun k => rows (flat_map (row_found k) ds)); intros k _; apply table_block|].
  intros q. apply flat_rows.
Qed.
Definition index_found (n : str) (ds : list (sdef F)) (q : query) : list (str * str) :=
  match q with QTitle => [([], n ++ tx " - Mabo")] | QRow => rows_found ds | QStyle => [style (ups 1)] | _ => [] end.
Lemma index_block n c ds : block [] (index_page blank markdown n c ds) [] (index_found n ds).
Proof.
  unfold index_page, content_pieces. generalize (merge_comments c). intros co. frag (Hm co). eapply block_eq.
  - apply base_block. refine (block_app _ [] _ _ _ none _ _ _); [leaf|apply tables_block].
  - intros []; cbn; rewrite ?app_nil_r; reflexivity.
Qed.
Definition module_found (p : list str) (n : str) (ds : list (sdef F)) (q : query) : list (str * str) :=
  match q with QTitle => [([], n ++ tx " - Mabo")] | QSpan => [span (tx "name-module") n] | QRow => rows_found ds
  | QStyle => [style (ups (length p))] | QLink => crumb_found p (length p - 1) | _ => [] end.
Lemma module_block p c n ds : block [] (module_page blank markdown p c n ds) [] (module_found p n ds).
Proof.
  unfold module_page, content_pieces. generalize (merge_comments c). intros co. frag (Hm co). eapply block_eq.
  - apply base_block. refine (block_app _ [tx "h2"; tx "div"] _ _ _ none _ _ _); [leaf|]. eapply block_app; [apply crumbs_block|].
    refine (block_app _ [] _ _ _ (spans [span (tx "name-module") n]) _ _ _); [leaf|apply tables_block].
  - intros []; cbn; rewrite ?app_nil_r; reflexivity.
Qed.
End Blocks.

(** * What the claim says *)
(** The entries of a table: the definitions of one kind, in their order; each links to its page. *)
Definition entry (cls before after n : str) : str * str := (cls ++ tx """ href=""" ++ before ++ n ++ after ++ [34], n).
Definition entries {F} (ds : list (sdef F)) : list (str * str) :=
  map (entry (tx "module") [] (tx "/index.html")) (flat_map (fun d => match d with SModule _ n _ => [n] | _ => [] end) ds) ++
  map (entry (tx "struct") (tx "struct.") (tx ".html")) (flat_map (fun d => match d with SStruct _ n _ _ => [n] | _ => [] end) ds) ++
  map (entry (tx "enum") (tx "enum.") (tx ".html")) (flat_map (fun d => match d with SEnum _ n _ _ => [n] | _ => [] end) ds) ++
  map (entry (tx "alias") (tx "alias.") (tx ".html")) (flat_map (fun d => match d with SAlias _ n _ _ => [n] | _ => [] end) ds) ++
  map (entry (tx "const") (tx "constant.") (tx ".html")) (flat_map (fun d => match d with SConst _ n _ _ => [n] | _ => [] end) ds).
(** What a reader of a page finds: its title; the definition in mabo; the names, types and identifiers, in the order of the page, each in a [span] of
    the class that says what it is; the next identifier; and the entries of its tables. *)
Record contents := Contents { c_title : str; c_shown : list str; c_spans : list (str * str); c_next : list str; c_entries : list (str * str) }.
Definition holds (text : str) (x : contents) : Prop :=
  found (tx "title") text = [([], c_title x ++ tx " - Mabo")] /\
  found (tx "pre class=""item-definition my-2""") text = map (pair []) (c_shown x) /\
  found (tx "span class=""") text = map (fun '(cls, s) => (cls ++ [34], s)) (c_spans x) /\
  found (tx "code class=""font-bold""") text = map (pair []) (c_next x) /\
  found (tx "a class=""text-lg name-") text = c_entries x.
Section Claim.
Context {F : Type}.
Variable fmt_f64 : F -> str.
Variable esc_u : N -> bool.
Definition some {A} (o : option A) : list A := match o with Some a => [a] | None => [] end.
Definition field_of (f : sfield) : list (str * str) :=
  [(tx "field-name", sf_name f); (tx "field-type", dp_type (sf_ty f)); (tx "field-id", tx "@" ++ dec_str (sf_id f))].
Definition variant_of (v : svariant) : list (str * str) :=
  [(tx "variant-name", sv_name v); (tx "variant-id", tx "@" ++ dec_str (sv_id v))] ++
  match ss_kind (sv_fields v) with SKUnit => [] | _ => flat_map field_of (ss_fields (sv_fields v)) end.
Definition contents_of (d : sdef F) : option contents :=
  match d with
  | SModule _ n ds => Some (Contents n [] [(tx "name-module", n)] [] (entries ds))
  | SStruct _ n _ fs =>
      Some (Contents n (some (shown_text fmt_f64 esc_u d)) ((tx "name-struct", n) :: flat_map field_of (ss_fields fs))
              (match next_field_id false fs with Some (Some i) => [dec_str i] | _ => [] end) [])
  | SEnum _ n _ vs => Some (Contents n (some (shown_text fmt_f64 esc_u d)) ((tx "name-enum", n) :: flat_map variant_of vs) [] [])
  | SAlias _ n _ _ => Some (Contents n (some (shown_text fmt_f64 esc_u d)) [(tx "name-alias", n)] [] [])
  | SConst _ n _ _ => Some (Contents n (some (shown_text fmt_f64 esc_u d)) [(tx "name-const", n)] [] [])
  | SImport _ _ => None
  end.
(** The definitions that have a page, and the path of the page. *)
Fixpoint places (parent : path) (d : sdef F) : list (path * sdef F) :=
  match d with
  | SModule _ n ds => (parent ++ [n; tx "index.html"], d) :: flat_map (places (parent ++ [n])) ds
  | SStruct _ n _ _ => [(parent ++ [tx "struct." ++ n ++ tx ".html"], d)]
  | SEnum _ n _ _ => [(parent ++ [tx "enum." ++ n ++ tx ".html"], d)]
  | SAlias _ n _ _ => [(parent ++ [tx "alias." ++ n ++ tx ".html"], d)]
  | SConst _ n _ _ => [(parent ++ [tx "constant." ++ n ++ tx ".html"], d)]
  | SImport _ _ => []
  end.
Definition page_ok (place : path * sdef F) (file : path * list piece) : Prop :=
  fst file = fst place /\ tree (page_text (snd file)) /\ exists x, contents_of (snd place) = Some x /\ holds (page_text (snd file)) x.
End Claim.

(** * The proofs *)
Lemma block_tree ps A : block [] ps [] A -> tree (page_text ps).
Proof. intros (l & H & Hn & _). exists l. split; [exact H|exact (Hn [])]. Qed.
Lemma block_found ps A q : looked lk q -> block [] ps [] A -> found (tag_of q) (page_text ps) = A q.
Proof. intros Hq (l & H & _ & Hf). unfold found. rewrite H. cbn [fst]. specialize (Hf q [] Hq). rewrite !app_nil_r in Hf. exact Hf. Qed.
Lemma block_holds ps A x : block [] ps [] A ->
  A QTitle = [([], c_title x ++ tx " - Mabo")] -> A QShown = map (pair []) (c_shown x) -> A QSpan = map (fun '(cls, s) => (cls ++ [34], s)) (c_spans x) ->
  A QNext = map (pair []) (c_next x) -> A QRow = c_entries x -> holds (page_text ps) x.
Proof.
  intros H H1 H2 H3 H4 H5. unfold holds. rewrite <- H1, <- H2, <- H3, <- H4, <- H5.
  split; [exact (block_found _ _ QTitle ltac:(discriminate) H)|]. split; [exact (block_found _ _ QShown ltac:(discriminate) H)|]. split; [exact (block_found _ _ QSpan ltac:(discriminate) H)|].
  split; [exact (block_found _ _ QNext ltac:(discriminate) H)|exact (block_found _ _ QRow ltac:(discriminate) H)].
Qed.
Lemma fields_map fs : flat_map field_spans fs = map (fun '(cls, s) => (cls ++ [34], s)) (flat_map field_of fs).
Proof. induction fs as [|f fs IH]; [reflexivity|]. cbn [flat_map]. rewrite map_app, IH. reflexivity. Qed.
Lemma variants_map vs : flat_map variant_spans vs = map (fun '(cls, s) => (cls ++ [34], s)) (flat_map variant_of vs).
Proof.
  induction vs as [|v vs IH]; [reflexivity|]. cbn [flat_map]. rewrite map_app, IH. f_equal. unfold variant_spans, variant_of. rewrite map_app.
  destruct (ss_kind (sv_fields v)); rewrite ?fields_map; reflexivity.
Qed.
Lemma row_map {F} (k : kind) (f : sdef F -> list str) (e : str -> str * str) ds : (forall d, row_found k d = map e (f d)) -> flat_map (row_found k) ds = map e (flat_map f ds).
Proof. intros H. induction ds as [|d ds IH]; [reflexivity|]. cbn [flat_map]. rewrite map_app, IH, H. reflexivity. Qed.
Lemma rows_entries {F} (ds : list (sdef F)) : rows_found ds = entries ds.
Proof.
  unfold rows_found, kinds. cbn [flat_map]. rewrite app_nil_r. unfold entries.
  f_equal; [apply row_map; intros []; reflexivity|]. f_equal; [apply row_map; intros []; reflexivity|]. f_equal; [apply row_map; intros []; reflexivity|].
  f_equal; [apply row_map; intros []; reflexivity|]. apply row_map; intros []; reflexivity.
Qed.
Lemma Forall2_flat {A B C} (R : B -> C -> Prop) (f : A -> list B) (g : A -> list C) l : (forall x, In x l -> Forall2 R (f x) (g x)) -> Forall2 R (flat_map f l) (flat_map g l).
Proof. intros H. induction l as [|x l IH]; [constructor|]. cbn [flat_map]. apply Forall2_app; [apply H; left; reflexivity|]. apply IH. intros y Hy. apply H. right. exact Hy. Qed.

Section Proofs.
Context {F : Type}.
Variable fmt_f64 : F -> str.
Variable esc_u : N -> bool.
Variable blank : str -> bool.
Variable markdown : str -> str.
Variable size_html : nat -> sty -> str.
Hypothesis Hm : forall s, fragment (markdown s).
Hypothesis Hs : forall n t, fragment (size_html n t).
Lemma pages_ok d : forall parent path_, Forall2 (page_ok fmt_f64 esc_u) (places parent d) (page_files fmt_f64 esc_u blank markdown size_html parent path_ d).
Proof.
  induction d as [c n ds IH|d Hd] using PropGoOut.sdef_ind2; intros parent path_.
  - cbn [places page_files]. constructor.
    + split; [reflexivity|]. cbn [snd fst]. split; [eapply block_tree, module_block, Hm|]. eexists. split; [reflexivity|].
      eapply block_holds; [apply module_block, Hm|..]; try reflexivity. cbn. apply rows_entries.
    + apply Forall2_flat. intros x Hx. apply (IH x Hx).
  - destruct d; try (exfalso; eapply Hd; reflexivity); cbn [places page_files]; [| | | |constructor].
    all: constructor; [|constructor]; split; [reflexivity|]; cbn [snd fst].
    + split; [eapply block_tree, struct_block; assumption|]. eexists. split; [reflexivity|].
      eapply block_holds; [apply struct_block; assumption|..]; try reflexivity; cbn [struct_found c_spans c_next map].
      * rewrite fields_map. reflexivity.
      * unfold next_shown. destruct (next_field_id _ _) as [[]|]; reflexivity.
    + split; [eapply block_tree, enum_block; assumption|]. eexists. split; [reflexivity|].
      eapply block_holds; [apply enum_block; assumption|..]; try reflexivity; cbn [enum_found c_spans c_next map].
      rewrite variants_map. reflexivity.
    + split; [eapply block_tree, alias_block; assumption|]. eexists. split; [reflexivity|].
      eapply block_holds; [apply alias_block; assumption|..]; reflexivity.
    + split; [eapply block_tree, const_block; assumption|]. eexists. split; [reflexivity|].
      eapply block_holds; [apply const_block; assumption|..]; reflexivity.
Qed.
End Proofs.
End Mode.
(** Every file of the documentation of a schema is a tree of elements.  The first is the index of the schema: its tables have an entry for every
    definition.  The others are, in order, the pages of all definitions (also those in modules), where their links lead, each with the contents of
    its definition.  For every behaviour of the markdown renderer on comments and sizes whose output closes what it opens and has none of the
    tags that are looked for. *)
Theorem C94_pages : forall (F : Type) (fmt_f64 : F -> str) esc_u blank markdown size_html,
  (forall s, fragment false (markdown s)) -> (forall n t, fragment false (size_html n t)) -> forall out stem c (ds : list (sdef F)), exists index pages,
  schema_files fmt_f64 esc_u blank markdown size_html out stem c ds = (out ++ [stem; stem; tx "index.html"], index) :: pages /\
  tree (page_text index) /\ holds (page_text index) (Contents stem [] [] [] (entries ds)) /\
  Forall2 (page_ok fmt_f64 esc_u) (flat_map (places (out ++ [stem; stem])) ds) pages.
Proof.
  intros F fmt_f64 esc_u blank markdown size_html Hm Hs out stem c ds. eexists. eexists. split; [reflexivity|]. split; [eapply block_tree, (index_block false blank markdown Hm)|]. split.
  - eapply block_holds; [apply (index_block false blank markdown Hm)|..]; try reflexivity. cbn. apply rows_entries.
  - apply Forall2_flat. intros d _. apply (pages_ok false); assumption.
Qed.
Print Assumptions C94_pages.
