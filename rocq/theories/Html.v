(** Reading HTML: what a browser makes of the text of a page, after the HTML Standard (13.2.5 Tokenization: data state, tag states, double-quoted
    attribute values, character references; 13.2.6: elements are closed in the order in which they were opened).
    This is a specification; nothing of the repository is modelled here.

    Simplifications: a tag is read up to its end as one text (its name and attributes, references decoded); a character reference ends with its
    semicolon; a comment is read as a tag without an end tag;
    script and raw text elements and single-quoted attributes are left out: the templates have none. *)
From Verif Require Import Base Syntax Parser.
Require Coq.Strings.String.
Import Coq.Strings.String.StringSyntax.
Local Open Scope N_scope.

Inductive tok := Chr (c : N) | Tag (t : str).
Inductive state := Data | Ref (r : str) | InTag (t : str) | InQuote (t : str) | QuoteRef (t r : str).
(** Character references: decimal numbers, and the five names of XML. *)
Definition reference (r : str) : option N :=
  match r with
  | 35 :: d :: t => if forallb (fun c => (48 <=? c) && (c <=? 57)) (d :: t) then Some (fold_left (fun a c => a * 10 + (c - 48)) (d :: t) 0) else None
  | _ => if str_eqb r (tx "amp") then Some 38 else if str_eqb r (tx "lt") then Some 60 else if str_eqb r (tx "gt") then Some 62
         else if str_eqb r (tx "quot") then Some 34 else if str_eqb r (tx "apos") then Some 39 else None
  end.
Definition referred (r : str) : str := match reference r with Some c => [c] | None => 38 :: r ++ [59] end.
Definition step (s : state) (c : N) : list tok * state :=
  match s with
  | Data => if c =? 60 then ([], InTag []) else if c =? 38 then ([], Ref []) else ([Chr c], Data)
  | Ref r => if c =? 59 then (map Chr (referred r), Data) else ([], Ref (r ++ [c]))
  | InTag t => if c =? 62 then ([Tag t], Data) else if c =? 34 then ([], InQuote (t ++ [34])) else ([], InTag (t ++ [c]))
  | InQuote t => if c =? 34 then ([], InTag (t ++ [34])) else if c =? 38 then ([], QuoteRef t []) else ([], InQuote (t ++ [c]))
  | QuoteRef t r => if c =? 59 then ([], InQuote (t ++ referred r)) else ([], QuoteRef t (r ++ [c]))
  end.
Fixpoint run (s : state) (t : str) : list tok * state :=
  match t with
  | [] => ([], s)
  | c :: t => let '(a, s1) := step s c in let '(b, s2) := run s1 t in (a ++ b, s2)
  end.

(** The name of a tag ends with white space; elements without an end tag. *)
Fixpoint tag_name (t : str) : str := match t with [] => [] | c :: r => if (c =? 32) || (c =? 10) then [] else c :: tag_name r end.
Definition void (n : str) : bool := existsb (str_eqb n) [tx "!DOCTYPE"; tx "meta"; tx "link"; tx "br"; tx "hr"; tx "img"; tx "input"; tx "!--"].
(** The elements open after the tokens; none if an end tag does not close the innermost one. *)
Fixpoint nest (open : list str) (l : list tok) : option (list str) :=
  match l with
  | [] => Some open
  | Chr _ :: l => nest open l
  | Tag (47 :: n) :: l => match open with m :: open => if str_eqb m n then nest open l else None | [] => None end
  | Tag t :: l => if void (tag_name t) then nest open l else nest (tag_name t :: open) l
  end.
(** The page is a tree of elements. *)
Definition tree (text : str) : Prop := exists l, run Data text = (l, Data) /\ nest [] l = Some [].

(** The text behind a tag, up to the next tag. *)
Fixpoint text_until (l : list tok) : str := match l with Chr c :: l => c :: text_until l | _ => [] end.
Fixpoint strip (p t : str) : option str :=
  match p, t with
  | [], _ => Some t
  | x :: p, y :: t => if x =? y then strip p t else None
  | _ :: _, [] => None
  end.
(** All tags that begin with a text: what follows that text in the tag, and the text behind the tag. *)
Fixpoint find (p : str) (l : list tok) : list (str * str) :=
  match l with
  | [] => []
  | Chr _ :: l => find p l
  | Tag t :: l => match strip p t with Some r => (r, text_until l) :: find p l | None => find p l end
  end.
Definition found (p text : str) : list (str * str) := find p (fst (run Data text)).
