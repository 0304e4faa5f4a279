(** The schema parser: crates/mabo-parser/src/parser.rs and parser/*.rs.

    A parser is a function from the remaining text to a result.  The combinators model the
    ones of winnow 1.0 (an external crate, modelled from its documented behaviour):
    [ErrMode::Backtrack] is [PBack], [ErrMode::Cut] is [PCut]; [PBug] is winnow's assertion
    "`repeat` parsers must always consume" (a panic in debug builds); [PFuel] does not exist in
    Rust, it marks the exhaustion of the recursion bound needed by Coq ([ParserTotal.v] proves
    that neither is ever reached).

    Simplifications (whole file): spans, error causes and error locations are dropped; a text
    is the list of its Unicode scalar values. *)
From Verif Require Import Base Syntax.
Require Coq.Strings.String.
Import Coq.Strings.String.StringSyntax.
Local Open Scope N_scope.

(** ASCII string constants as texts. *)
Definition tx (s : String.string) : str := map Ascii.N_of_ascii (String.list_ascii_of_string s).
Arguments tx s%string_scope.

Inductive pres (A : Type) :=
| POk (a : A) (rest : str)
| PBack
| PCut
| PBug
| PFuel.
Arguments POk {A} a rest.
Arguments PBack {A}.
Arguments PCut {A}.
Arguments PBug {A}.
Arguments PFuel {A}.

Definition parser (A : Type) := str -> pres A.

(** * Combinators *)

(** winnow tuples, [preceded], [terminated], [delimited]: one parser after the other. *)
Definition pret {A} (a : A) : parser A := fun i => POk a i.
Definition pfail {A} : parser A := fun _ => PBack.
Definition pbind {A B} (p : parser A) (f : A -> parser B) : parser B := fun i =>
  match p i with
  | POk a r => f a r
  | PBack => PBack
  | PCut => PCut
  | PBug => PBug
  | PFuel => PFuel
  end.
Notation "'pdo' x <- p ; q" := (pbind p (fun x => q)) (at level 200, x pattern, p at level 100, q at level 200).
Notation "p ;; q" := (pbind p (fun _ => q)) (at level 199, right associativity).
Definition pmap {A B} (f : A -> B) (p : parser A) : parser B := pdo a <- p; pret (f a).

(** winnow [cut_err]. *)
Definition cut_err {A} (p : parser A) : parser A := fun i =>
  match p i with PBack => PCut | x => x end.
(** winnow [alt] of two parsers: the second one is tried on the original input. *)
Definition alt {A} (p q : parser A) : parser A := fun i =>
  match p i with PBack => q i | x => x end.
(** winnow [opt]. *)
Definition opt {A} (p : parser A) : parser (option A) := fun i =>
  match p i with
  | POk a r => POk (Some a) r
  | PBack => POk None i
  | PCut => PCut
  | PBug => PBug
  | PFuel => PFuel
  end.

(** winnow [repeat(0.., p)]. *)
Fixpoint repeat_loop {A} (fuel : nat) (p : parser A) (i : str) : pres (list A) :=
  match fuel with
  | O => PFuel
  | S n =>
      match p i with
      | POk a r =>
          if (length r =? length i)%nat then PBug
          else match repeat_loop n p r with
               | POk l r' => POk (a :: l) r'
               | e => e
               end
      | PBack => POk [] i
      | PCut => PCut
      | PBug => PBug
      | PFuel => PFuel
      end
  end.
Definition repeat0 {A} (p : parser A) : parser (list A) := fun i => repeat_loop (S (length i)) p i.
(** winnow [repeat(1.., p)]. *)
Definition repeat1 {A} (p : parser A) : parser (list A) :=
  pdo a <- p; pdo l <- repeat0 p; pret (a :: l).

(** winnow [separated(1.., p, sep)]. *)
Fixpoint separated_loop {A B} (fuel : nat) (p : parser A) (sep : parser B) (i : str) : pres (list A) :=
  match fuel with
  | O => PFuel
  | S n =>
      match (sep ;; p) i with
      | POk a r =>
          if (length r =? length i)%nat then PBug
          else match separated_loop n p sep r with
               | POk l r' => POk (a :: l) r'
               | e => e
               end
      | PBack => POk [] i
      | PCut => PCut
      | PBug => PBug
      | PFuel => PFuel
      end
  end.
Definition separated1 {A B} (p : parser A) (sep : parser B) : parser (list A) :=
  pdo a <- p; pdo l <- (fun i => separated_loop (S (length i)) p sep i); pret (a :: l).

(** winnow [any] under [peek]: the next character, not consumed. *)
Definition peek_any : parser N := fun i => match i with c :: _ => POk c i | [] => PBack end.
(** winnow [one_of]. *)
Definition one_of (f : N -> bool) : parser N := fun i =>
  match i with c :: r => if f c then POk c r else PBack | [] => PBack end.
(** A [char] as parser. *)
Definition char (c : N) : parser unit := fun i =>
  match i with x :: r => if x =? c then POk tt r else PBack | [] => PBack end.
(** winnow [literal] / a [&str] as parser. *)
Fixpoint tag (s : str) : parser unit := fun i =>
  match s with
  | [] => POk tt i
  | c :: s' => match i with x :: r => if x =? c then tag s' r else PBack | [] => PBack end
  end.

(** winnow [take_while(min.., f)]: longest prefix of characters satisfying [f]. *)
Fixpoint span (f : N -> bool) (i : str) : str * str :=
  match i with
  | c :: r => if f c then let (a, b) := span f r in (c :: a, b) else ([], i)
  | [] => ([], [])
  end.
Definition take_while (min : nat) (f : N -> bool) : parser str := fun i =>
  let (a, r) := span f i in if (length a <? min)%nat then PBack else POk a r.
(** winnow [take_while(1..=max, f)]: at most [max] characters. *)
Fixpoint span_max (max : nat) (f : N -> bool) (i : str) : str * str :=
  match max, i with
  | S m, c :: r => if f c then let (a, b) := span_max m f r in (c :: a, b) else ([], i)
  | _, _ => ([], i)
  end.
Definition take_between (max : nat) (f : N -> bool) : parser str := fun i =>
  match span_max max f i with ([], _) => PBack | (a, r) => POk a r end.
(** winnow [take_till(min.., set)]. *)
Definition take_till (min : nat) (f : N -> bool) : parser str := take_while min (fun c => negb (f c)).

(** * Character classes *)
Definition is_lower (c : N) : bool := (97 <=? c) && (c <=? 122).
Definition is_upper (c : N) : bool := (65 <=? c) && (c <=? 90).
Definition is_digit (c : N) : bool := (48 <=? c) && (c <=? 57).
Definition is_hex (c : N) : bool :=
  is_digit c || ((97 <=? c) && (c <=? 102)) || ((65 <=? c) && (c <=? 70)).
Definition is_alnum (c : N) : bool := is_lower c || is_upper c || is_digit c.
(** winnow [space0]/[space1]: space and tab. *)
Definition is_space (c : N) : bool := (c =? 32) || (c =? 9).
(** winnow [multispace0]/[multispace1]: space, tab, carriage return, newline. *)
Definition is_mspace (c : N) : bool := (c =? 32) || (c =? 9) || (c =? 13) || (c =? 10).

Definition space0 : parser unit := pmap (fun _ => tt) (take_while 0 is_space).
Definition space1 : parser unit := pmap (fun _ => tt) (take_while 1 is_space).
Definition multispace0 : parser unit := pmap (fun _ => tt) (take_while 0 is_mspace).
Definition multispace1 : parser unit := pmap (fun _ => tt) (take_while 1 is_mspace).

(** A first character followed by the longest run of further ones ([(one_of, take_while).take()]). *)
Definition ident (f g : N -> bool) : parser str :=
  pdo c <- one_of f; pdo r <- take_while 0 g; pret (c :: r).

Definition lower_tail (c : N) : bool := is_lower c || is_digit c || (c =? 95).
(** parser/structs.rs L97-108 [parse_name], parser/enums.rs L115-126 and L158-167 [parse_name],
    [parse_variant_name], parser/aliases.rs L96-107, parser/generics.rs L60-71: an upper case
    letter and ASCII letters or digits ([alphanumeric0]). *)
Definition type_name : parser str := ident is_upper is_alnum.
(** parser/imports.rs L104-118 [parse_segment], parser/fields.rs L152-166 [parse_field_name],
    parser/modules.rs L91-105 [parse_name], parser/attributes.rs L84-91 [parse_name]. *)
Definition lower_name : parser str := ident is_lower lower_tail.
(** parser/consts.rs L114-128 [parse_name]. *)
Definition const_name : parser str :=
  ident is_upper (fun c => is_upper c || is_digit c || (c =? 95)).
(** parser/types.rs L222-231 [parse_external_name]. *)
Definition external_name : parser str :=
  ident is_upper (fun c => is_lower c || is_upper c || is_digit c || (c =? 95)).

(** Value of a string of decimal digits. *)
Definition dec_value (s : str) : N := fold_left (fun a c => a * 10 + (c - 48)) s 0.
(** winnow [dec_uint]: no leading zeros; the value must fit the target type. *)
Definition dec_uint (max : N) : parser N := fun i =>
  match i with
  | c :: r =>
      if (49 <=? c) && (c <=? 57) then
        let (d, r') := span is_digit r in
        if dec_value (c :: d) <=? max then POk (dec_value (c :: d)) r' else PBack
      else if c =? 48 then POk 0 r else PBack
  | [] => PBack
  end.

(** parser.rs L208-217 [ws]. *)
Definition ws {A} (p : parser A) : parser A := multispace0 ;; p.

(** parser.rs L219-270 [punctuate].  [acc] holds the values pushed so far. *)
Fixpoint punct_loop {A} (fuel : nat) (f : parser A) (g : parser (A * bool))
    (acc : list A) (prev : option str) (i : str) : pres (punct A) :=
  match fuel with
  | O => PFuel
  | S n =>
      match f i with
      | POk a r =>
          if (length r =? length i)%nat then PBug else punct_loop n f g (acc ++ [a]) (Some i) r
      | PBack =>
          match g i with
          | POk (a, t) r => POk (Punct acc a t) r
          | PBack =>
              match prev with
              | Some s => match g s with
                          | POk (a, t) r => POk (Punct (removelast acc) a t) r
                          | PBack => PBack
                          | PCut => PCut
                          | PBug => PBug
                          | PFuel => PFuel
                          end
              | None => PBack
              end
          | PCut => PCut
          | PBug => PBug
          | PFuel => PFuel
          end
      | PCut => PCut
      | PBug => PBug
      | PFuel => PFuel
      end
  end.
Definition punctuate {A} (f : parser A) (g : parser (A * bool)) : parser (punct A) := fun i =>
  punct_loop (S (length i)) f g [] None i.

(** token.rs L129 [Comma::parser]. *)
Definition comma : parser unit := char 44.
(** Every use of [punctuate] in the parser has this form: an element and a comma, respectively
    an element and an optional comma (parser/types.rs L164-172, L202-208, parser/fields.rs
    L95-98, L105-108, parser/enums.rs L131-134, parser/generics.rs L46-49). *)
Definition punctuated {A} (e : parser A) : parser (punct A) :=
  punctuate (pdo a <- e; ws comma ;; pret a)
            (pdo a <- e; pdo t <- opt (ws comma); pret (a, match t with Some _ => true | None => false end)).

(** parser.rs L272-287 [surround]. *)
Definition surround {A} (open close : N) (p : parser A) : parser A :=
  char open ;; cut_err (pdo a <- p; ws (char close) ;; pret a).

(** * Types: parser/types.rs *)

(** L72-91: the keywords of [parse_basic]. *)
Definition basic_keyword (s : str) : option prim :=
  if str_eqb s (tx "bool") then Some PrBool
  else if str_eqb s (tx "u8") then Some PrU8
  else if str_eqb s (tx "u16") then Some PrU16
  else if str_eqb s (tx "u32") then Some PrU32
  else if str_eqb s (tx "u64") then Some PrU64
  else if str_eqb s (tx "u128") then Some PrU128
  else if str_eqb s (tx "i8") then Some PrI8
  else if str_eqb s (tx "i16") then Some PrI16
  else if str_eqb s (tx "i32") then Some PrI32
  else if str_eqb s (tx "i64") then Some PrI64
  else if str_eqb s (tx "i128") then Some PrI128
  else if str_eqb s (tx "f32") then Some PrF32
  else if str_eqb s (tx "f64") then Some PrF64
  else if str_eqb s (tx "string") then Some PrString
  else if str_eqb s (tx "&string") then Some PrStringRef
  else if str_eqb s (tx "bytes") then Some PrBytes
  else if str_eqb s (tx "&bytes") then Some PrBytesRef
  else None.
Definition basic_char (c : N) : bool := is_lower c || is_digit c || (c =? 38).
(** L70-97 [parse_basic]. *)
Definition parse_basic : parser pty :=
  alt (pdo k <- take_while 2 basic_char;
       match basic_keyword k with Some p => pret (PPrim p) | None => pfail end)
  (alt (tag (tx "box<string>") ;; pret (PPrim PrBoxString))
       (tag (tx "box<bytes>") ;; pret (PPrim PrBoxBytes))).

Definition generic_char (c : N) : bool := is_lower c || (c =? 95).
(** L103-111 [parse_single]. *)
Definition parse_single (mk : pty -> pty) (p : parser pty) : parser pty :=
  cut_err (pmap mk (surround 60 62 p)).
(** L116-128 [parse_pair]. *)
Definition parse_pair (p : parser pty) : parser pty :=
  cut_err (surround 60 62 (pdo k <- p; space0 ;; comma ;; space0 ;; pdo v <- p; pret (PHashMap k v))).
(** L99-162 [parse_generic]. *)
Definition parse_generic (p : parser pty) : parser pty :=
  pdo k <- take_while 3 generic_char;
  if str_eqb k (tx "vec") then parse_single PVec p
  else if str_eqb k (tx "hash_map") then parse_pair p
  else if str_eqb k (tx "hash_set") then parse_single PHashSet p
  else if str_eqb k (tx "option") then parse_single POption p
  else if str_eqb k (tx "non_zero") then parse_single PNonZero p
  else pfail.
(** L164-174 [parse_tuple]. *)
Definition parse_tuple (p : parser pty) : parser pty :=
  pmap PTuple (surround 40 41 (punctuated (ws p))).
(** L176-189 [parse_array]. *)
Definition parse_array (p : parser pty) : parser pty :=
  surround 91 93 (pdo t <- ws p; ws (char 59) ;; pdo n <- ws (dec_uint (2 ^ 32 - 1)); pret (PArray t n)).
(** L191-220 [parse_external]. *)
Definition parse_external (p : parser pty) : parser pty :=
  pdo path <- opt (repeat1 (pdo s <- lower_name; tag (tx "::") ;; pret s));
  pdo name <- external_name;
  pdo gs <- opt (surround 60 62 (punctuated (ws p)));
  pret (PExternal (match path with Some l => l | None => [] end) name gs).
(** L49-68 [parse].  The fuel bounds the nesting depth. *)
Fixpoint parse_type (fuel : nat) (i : str) : pres pty :=
  match fuel with
  | O => PFuel
  | S n =>
     (alt parse_basic
     (alt (parse_generic (parse_type n))
     (alt (parse_tuple (parse_type n))
     (alt (parse_array (parse_type n))
          (parse_external (parse_type n)))))) i
  end.
Definition ptype : parser pty := fun i => parse_type (S (length i)) i.

(** * Ids, comments: parser.rs *)

(** L130-141 [ids::parse]. *)
Definition parse_id : parser N := char 64 ;; dec_uint (2 ^ 32 - 1).
(** L182-206 [comments::parse]. *)
Definition comment_line : parser str :=
  space0 ;; tag (tx "///") ;; space0 ;;
  pdo l <- take_till 0 (fun c => c =? 10); char 10 ;; pret l.
Definition comments : parser comment := repeat0 comment_line.

(** * Fields: parser/fields.rs *)

(** L116-128 [parse_unnamed_field]. *)
Definition parse_unnamed_field : parser ufield :=
  pdo t <- ws ptype; pdo i <- opt (space0 ;; parse_id); pret (UField t i).
(** L130-150 [parse_named_field]. *)
Definition parse_named_field : parser nfield :=
  pdo c <- ws comments;
  space0 ;; pdo n <- lower_name;
  space0 ;; char 58 ;;
  space0 ;; pdo t <- ptype;
  pdo i <- opt (space0 ;; parse_id);
  pret (NField c n t i).
(** L74-90 [parse], L92-114 [parse_named], [parse_unnamed], [parse_unit]. *)
Definition parse_fields : parser pfields :=
  pdo c <- peek_any;
  if c =? 123 then pmap FNamed (surround 123 125 (punctuated parse_named_field))
  else if c =? 40 then pmap FUnnamed (surround 40 41 (punctuated parse_unnamed_field))
  else pret FUnit.

(** parser/generics.rs L45-58 [parse]. *)
Definition parse_generics : parser generics := surround 60 62 (punctuated (ws type_name)).

(** parser/enums.rs L138-156 [parse_variant]. *)
Definition parse_variant : parser pvariant :=
  pdo c <- ws comments;
  space0 ;; pdo n <- type_name;
  space0 ;; pdo fs <- parse_fields;
  pdo i <- opt (space0 ;; parse_id);
  pret (PVariant c n fs i).

(** * Literals: parser/literals.rs *)
Section Lit.
Context {F : Type}.
(** [f64::from_str] on a text of the form [+-]d+.d+([eE][+-]?d+)?. *)
Variable parse_f64 : str -> option F.

Definition is_sign (c : N) : bool := (c =? 43) || (c =? 45).
Definition sign_text (s : option N) : str := match s with Some c => [c] | None => [] end.
(** L125-134 [parse_float]. *)
Definition parse_float : parser F :=
  pdo s <- opt (one_of is_sign);
  pdo a <- take_while 1 is_digit; char 46 ;; pdo b <- take_while 1 is_digit;
  pdo e <- opt (pdo c <- one_of (fun c => (c =? 101) || (c =? 69));
                pdo s <- opt (one_of is_sign);
                pdo d <- cut_err (take_while 1 is_digit);
                pret (c :: sign_text s ++ d));
  match parse_f64 (sign_text s ++ a ++ 46 :: b ++ match e with Some t => t | None => [] end) with
  | Some f => pret f
  | None => pfail
  end.
(** [i128::from_str] of an optional sign and digits. *)
Definition int_value (s : option N) (d : str) : option Z :=
  let v := match s with
           | Some c => if c =? 45 then (- Z.of_N (dec_value d))%Z else Z.of_N (dec_value d)
           | None => Z.of_N (dec_value d)
           end in
  if (- 2 ^ 127 <=? v)%Z && (v <? 2 ^ 127)%Z then Some v else None.
(** L136-146 [parse_int]. *)
Definition parse_int : parser Z :=
  pdo s <- opt (one_of is_sign);
  pdo d <- take_while 1 is_digit;
  match int_value s d with Some v => pret v | None => pfail end.

(** [char::from_u32]. *)
Definition is_scalar (c : N) : bool := (c <? 55296) || ((57344 <=? c) && (c <? 1114112)).
Definition hex_digit (c : N) : N :=
  if is_digit c then c - 48 else if (97 <=? c) && (c <=? 102) then c - 87 else c - 55.
(** [u32::from_str_radix(_, 16)] of at most six hex digits. *)
Definition hex_value (s : str) : N := fold_left (fun a c => a * 16 + hex_digit c) s 0.
(** L208-220 [parse_string_unicode]; [try_map] cannot fail on at most six digits. *)
Definition parse_string_unicode : parser N :=
  pdo h <- (char 117 ;; cut_err (char 123 ;; pdo h <- take_between 6 is_hex; char 125 ;; pret h));
  if is_scalar (hex_value h) then pret (hex_value h) else pfail.
(** L187-206 [parse_string_escaped_char]. *)
Definition parse_escaped_char : parser N :=
  char 92 ;; pdo c <- peek_any;
  if c =? 110 then char 110 ;; pret 10
  else if c =? 114 then char 114 ;; pret 13
  else if c =? 116 then char 116 ;; pret 9
  else if c =? 98 then char 98 ;; pret 8
  else if c =? 102 then char 102 ;; pret 12
  else if c =? 92 then char 92 ;; pret 92
  else if c =? 0 then char 0 ;; pret 0
  else if c =? 47 then char 47 ;; pret 47
  else if c =? 34 then char 34 ;; pret 34
  else if c =? 117 then parse_string_unicode
  else pfail.
(** L172-185, L222-224 [parse_fragment]: the text the fragment contributes. *)
Definition parse_fragment : parser str :=
  alt (take_till 1 (fun c => (c =? 34) || (c =? 92)))
 (alt (pmap (fun c => [c]) parse_escaped_char)
      (char 92 ;; multispace1 ;; pret [])).
(** L148-164 [parse_string]. *)
Definition parse_string : parser str :=
  char 34 ;; cut_err (pdo l <- repeat0 parse_fragment; char 34 ;; pret (concat l)).
(** L226-235 [parse_bytes]. *)
Definition parse_bytes : parser (list N) :=
  char 91 ;; cut_err (pdo l <- separated1 (ws (dec_uint 255)) (ws comma);
                      opt (ws comma) ;; ws (char 93) ;; pret l).
(** L90-115 [parse], L117-123 [parse_true], [parse_false]. *)
Definition parse_literal : parser (lit F) :=
  pdo c <- peek_any;
  if c =? 116 then tag (tx "true") ;; pret (LBool true)
  else if c =? 102 then tag (tx "false") ;; pret (LBool false)
  else if is_sign c || is_digit c then cut_err (alt (pmap LFloat parse_float) (pmap LInt parse_int))
  else if c =? 34 then pmap LString parse_string
  else if c =? 91 then pmap LBytes parse_bytes
  else pfail.

(** * Attributes: parser/attributes.rs *)

(** L120-126 [parse_single_value]. *)
Definition parse_single_value : parser (lit F) := space0 ;; char 61 ;; space0 ;; parse_literal.
(** L71-77 and L107-113: a comma separated list of attributes, where a trailing comma directly
    behind the last one is allowed. *)
Definition attr_list (pv : parser (attr_value F)) : parser (list (attr F)) :=
  pdo l <- separated1 (ws (pdo n <- lower_name; pdo v <- pv; pret (Attr n v))) (ws comma);
  opt comma ;; pret l.
(** L93-100 [parse_value], L102-118 [parse_multi_value].  The fuel bounds the nesting depth. *)
Fixpoint parse_value (fuel : nat) (i : str) : pres (attr_value F) :=
  match fuel with
  | O => PFuel
  | S n =>
     (alt (char 40 ;; pmap AMulti (cut_err (pdo l <- attr_list (parse_value n); ws (char 41) ;; pret l)))
     (alt (pmap ASingle parse_single_value) (pret AUnit))) i
  end.
Definition pvalue : parser (attr_value F) := fun i => parse_value (S (length i)) i.
(** L66-82 [parse_attribute]. *)
Definition parse_attribute : parser (list (attr F)) :=
  char 35 ;; char 91 ;; cut_err (pdo l <- attr_list pvalue; ws (char 93) ;; pret l).
(** L48-64 [parse]. *)
Definition attributes : parser (list (attr F)) :=
  pmap (@concat _) (repeat0 (pdo l <- parse_attribute; char 10 ;; pret l)).

(** * Definitions *)

(** parser/structs.rs L69-95 [parse]. *)
Definition parse_struct : parser (pdef F) :=
  tag (tx "struct") ;; space1 ;;
  cut_err (pdo n <- type_name; pdo g <- opt parse_generics; space0 ;; pdo fs <- parse_fields;
           pret (PStruct [] [] n g fs)).
(** parser/enums.rs L88-113 [parse], L128-136 [parse_variants]. *)
Definition parse_enum : parser (pdef F) :=
  tag (tx "enum") ;; space1 ;;
  cut_err (pdo n <- type_name; pdo g <- opt parse_generics; space0 ;;
           pdo vs <- surround 123 125 (punctuated parse_variant);
           pret (PEnum [] [] n g vs)).
(** parser/aliases.rs L65-94 [parse]. *)
Definition parse_alias : parser (pdef F) :=
  tag (tx "type") ;; space1 ;;
  cut_err (pdo n <- type_name; pdo g <- opt parse_generics; space0 ;; char 61 ;;
           space0 ;; pdo t <- ptype; space0 ;; char 59 ;; pret (PAlias [] n g t)).
(** parser/consts.rs L78-112 [parse]. *)
Definition parse_const : parser (pdef F) :=
  tag (tx "const") ;; space1 ;;
  cut_err (pdo n <- const_name; char 58 ;; space0 ;; pdo t <- ptype; space0 ;; char 61 ;;
           space0 ;; pdo v <- parse_literal; char 59 ;; pret (PConst [] n t v)).
(** parser/imports.rs L65-102 [parse]; [structs::parse_name] and [enums::parse_name] accept the
    same texts. *)
Definition parse_import : parser (pdef F) :=
  tag (tx "use") ;; space1 ;;
  cut_err (pdo l <- separated1 lower_name (tag (tx "::"));
           pdo e <- opt (tag (tx "::") ;; alt type_name type_name);
           char 59 ;; pret (PImport l e)).
(** parser/modules.rs L62-89 [parse]. *)
Definition parse_module (d : parser (pdef F)) : parser (pdef F) :=
  tag (tx "mod") ;; space1 ;;
  cut_err (pdo n <- lower_name; space0 ;; pdo l <- surround 123 125 (repeat0 (ws d));
           pret (PModule [] n l)).

(** lib.rs L226-236 [with_comment]. *)
Definition with_comment (c : comment) (d : pdef F) : pdef F :=
  match d with
  | PModule _ n ds => PModule c n ds
  | PStruct _ a n g fs => PStruct c a n g fs
  | PEnum _ a n g vs => PEnum c a n g vs
  | PAlias _ n g t => PAlias c n g t
  | PConst _ n t v => PConst c n t v
  | PImport s e => PImport s e
  end.
(** lib.rs L238-250 [with_attributes]. *)
Definition with_attributes (a : list (attr F)) (d : pdef F) : pdef F :=
  match d with
  | PStruct c _ n g fs => PStruct c a n g fs
  | PEnum c _ n g vs => PEnum c a n g vs
  | d => d
  end.
(** parser.rs L76-96 [parse_definition].  The fuel bounds the nesting depth of modules. *)
Fixpoint parse_definition (fuel : nat) (i : str) : pres (pdef F) :=
  match fuel with
  | O => PFuel
  | S n =>
     (pdo c <- ws comments; pdo a <- ws attributes; space0 ;;
      pdo d <- (pdo k <- peek_any;
                if k =? 109 then parse_module (parse_definition n)
                else if k =? 115 then parse_struct
                else if k =? 101 then parse_enum
                else if k =? 99 then parse_const
                else if k =? 116 then parse_alias
                else if k =? 117 then parse_import
                else pfail);
      pret (with_attributes a (with_comment c d))) i
  end.
Definition pdefinition : parser (pdef F) := fun i => parse_definition (S (length i)) i.

(** parser.rs L51-74 [parse_schema]. *)
Definition parse_schema : parser (pschema F) :=
  pdo c <- opt (pdo c <- ws comments; char 10 ;; pret c);
  pdo ds <- repeat0 pdefinition; multispace0 ;;
  pret (PSchema (match c with Some c => c | None => [] end) ds).

(** lib.rs L160-172 [Schema::parse]: winnow's [Parser::parse] demands that everything is
    consumed.  [None]: an error is reported. *)
Definition schema_parse (i : str) : option (pschema F) :=
  match parse_schema i with POk s [] => Some s | _ => None end.
End Lit.
