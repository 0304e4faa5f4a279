(** The schema parser with its errors: crates/mabo-parser/src/parser.rs, parser/*.rs, error.rs, location.rs, ext.rs, the
    error types derived by crates/mabo-derive/src/{error,cause}.rs, and the diagnostics the language server makes of them,
    crates/mabo-lsp/src/handlers/compile.rs L33-233.

    Parser.v again, where a failing parser also says what it reports and what input it leaves.  [ErrProofs.v] proves that
    without the errors the results are those of Parser.v.

    winnow (external) is modelled from its published behaviour: a failing primitive ([any], [one_of], a literal, [take_while],
    [dec_uint], [parse_to], [verify_map]) leaves the input where it started; sequences leave it where they failed; [alt] starts
    each alternative at the same place, reports the last error and leaves the input where that alternative failed; [opt],
    [repeat] and [separated] put the input back when they go on after a failure.  [ParserError::or] and [append] keep the newer
    error and add nothing (their default implementations). *)
From Verif Require Import Base Syntax Parser Lsp SpanParser.
Require Coq.Strings.String.
Import Coq.Strings.String.StringSyntax.
Local Open Scope N_scope.

(** The error types: error.rs [ParseSchemaCause], [ParseDefinitionError], and [ParseError]/[Cause] of each module in parser/. *)
Inductive layer := LySchema | LyDefinition | LyModule | LyStruct | LyEnum | LyConst | LyAlias | LyImport | LyAttribute | LyLiteral
                 | LyFields | LyGenerics | LyType | LyComment | LyId.
(** The causes that are not another error type's: [Parser(at)], [InvalidName { at }], [InvalidVariantName { at }],
    [InvalidSegmentName { at }], [InvalidInt { at }], [UnexpectedChar { at, expected }].  ([FoundReference] and [ParseInt] are
    constructed nowhere but by [from_external_error] for [try_map] in literals.rs L217, whose conversion cannot fail.) *)
Inductive cause := CParser | CInvalidName | CInvalidVariantName | CInvalidSegmentName | CInvalidInt | CUnexpectedChar (expected : N).
(** A [ParseError { at, cause }] around a cause: its type and [at]. *)
Record frame := Frame { fr_layer : layer; fr_at : N * N }.
(** An error: the enclosing [ParseError]s, outermost first, and the innermost cause with its type and location. *)
Record err := Err { er_frames : list frame; er_layer : layer; er_cause : cause; er_at : N }.

(** Results; [cut] tells [ErrMode::Cut] from [ErrMode::Backtrack]. *)
Inductive eres (A : Type) :=
| EOk (a : A) (rest : str)
| EErr (cut : bool) (e : err) (rest : str)
| EBug
| EFuel.
Arguments EOk {A} a rest.
Arguments EErr {A} cut e rest.
Arguments EBug {A}.
Arguments EFuel {A}.
Definition eparser (A : Type) := str -> eres A.

(** location.rs L8-27: [offset_for], the offset of a character from where the input starts. *)
Fixpoint offset_for (c : N) (i : str) : option N :=
  match i with
  | [] => None
  | x :: r => if x =? c then Some 0 else option_map (N.add (len8 x)) (offset_for c r)
  end.
Fixpoint find_char (cs : list N) (i : str) : option N :=
  match cs with
  | [] => None
  | c :: cs' => match offset_for c i with Some n => Some n | None => find_char cs' i end
  end.

Section Err.
(** Length of the whole text in bytes. *)
Variable total : N.
Notation offs := (offs total).

(** [ParserError::from_input] (error.rs L138-141, derive/src/cause.rs [expand_winnow]). *)
Definition from_input (ly : layer) (i : str) : err := Err [] ly CParser (offs i).
(** location.rs L8-27 [from_until]: the end is counted from the start of the declaration, not from the start of the text. *)
Definition from_until (cs : list N) (i : str) : N * N :=
  (offs i, match find_char cs i with Some n => n + 1 | None => offs i end).

(** * Combinators *)
(** A primitive of Parser.v as a parser with errors of type [ly]. *)
Definition prim (ly : layer) {A} (p : parser A) : eparser A := fun i =>
  match p i with
  | POk a r => EOk a r
  | PBack => EErr false (from_input ly i) i
  | PCut => EErr true (from_input ly i) i
  | PBug => EBug
  | PFuel => EFuel
  end.
Definition eret {A} (a : A) : eparser A := fun i => EOk a i.
(** winnow [fail]. *)
Definition efail (ly : layer) {A} : eparser A := fun i => EErr false (from_input ly i) i.
Definition ebind {A B} (p : eparser A) (f : A -> eparser B) : eparser B := fun i =>
  match p i with
  | EOk a r => f a r
  | EErr c e r => EErr c e r
  | EBug => EBug
  | EFuel => EFuel
  end.
Definition emap {A B} (f : A -> B) (p : eparser A) : eparser B := ebind p (fun a => eret (f a)).
Definition ecut {A} (p : eparser A) : eparser A := fun i =>
  match p i with EErr false e r => EErr true e r | x => x end.
Definition ealt {A} (p q : eparser A) : eparser A := fun i =>
  match p i with EErr false _ _ => q i | x => x end.
Definition eopt {A} (p : eparser A) : eparser (option A) := fun i =>
  match p i with
  | EOk a r => EOk (Some a) r
  | EErr false _ _ => EOk None i
  | EErr true e r => EErr true e r
  | EBug => EBug
  | EFuel => EFuel
  end.
Fixpoint erepeat_loop {A} (fuel : nat) (p : eparser A) (i : str) : eres (list A) :=
  match fuel with
  | O => EFuel
  | S n =>
      match p i with
      | EOk a r =>
          if (length r =? length i)%nat then EBug
          else match erepeat_loop n p r with
               | EOk l r' => EOk (a :: l) r'
               | e => e
               end
      | EErr false _ _ => EOk [] i
      | EErr true e r => EErr true e r
      | EBug => EBug
      | EFuel => EFuel
      end
  end.
Definition erepeat0 {A} (p : eparser A) : eparser (list A) := fun i => erepeat_loop (S (length i)) p i.
Definition erepeat1 {A} (p : eparser A) : eparser (list A) := ebind p (fun a => ebind (erepeat0 p) (fun l => eret (a :: l))).
Fixpoint eseparated_loop {A B} (fuel : nat) (p : eparser A) (sep : eparser B) (i : str) : eres (list A) :=
  match fuel with
  | O => EFuel
  | S n =>
      match ebind sep (fun _ => p) i with
      | EOk a r =>
          if (length r =? length i)%nat then EBug
          else match eseparated_loop n p sep r with
               | EOk l r' => EOk (a :: l) r'
               | e => e
               end
      | EErr false _ _ => EOk [] i
      | EErr true e r => EErr true e r
      | EBug => EBug
      | EFuel => EFuel
      end
  end.
Definition eseparated1 {A B} (p : eparser A) (sep : eparser B) : eparser (list A) :=
  ebind p (fun a => ebind (fun i => eseparated_loop (S (length i)) p sep i) (fun l => eret (a :: l))).
(** ext.rs L86-98, L131-144 [map_err2], [map_err_loc] and the [map_err] of the parsers of names: the cause is replaced, the
    location is where the input is then. *)
Definition ecause {A} (ly : layer) (c : cause) (p : eparser A) : eparser A := fun i =>
  match p i with EErr cut _ r => EErr cut (Err [] ly c (offs r)) r | x => x end.
(** The [map_err] of the modules' [parse]: the error is put into the module's [ParseError]; [at] is computed from the input
    before and after. *)
Definition within {A} (ly : layer) (at_ : str -> str -> N * N) (p : eparser A) : eparser A := fun i =>
  match p i with
  | EErr cut e r => EErr cut (Err (Frame ly (at_ i r) :: er_frames e) (er_layer e) (er_cause e) (er_at e)) r
  | x => x
  end.

(** parser.rs L208-217 [ws]. *)
Definition ews {A} (ly : layer) (p : eparser A) : eparser A := ebind (prim ly multispace0) (fun _ => p).
(** parser.rs L219-270 [punctuate]. *)
Fixpoint epunct_loop {A} (fuel : nat) (f : eparser A) (g : eparser (A * bool))
    (acc : list A) (prev : option str) (i : str) : eres (punct A) :=
  match fuel with
  | O => EFuel
  | S n =>
      match f i with
      | EOk a r => if (length r =? length i)%nat then EBug else epunct_loop n f g (acc ++ [a]) (Some i) r
      | EErr false _ _ =>
          match g i with
          | EOk (a, t) r => EOk (Punct acc a t) r
          | EErr false e r =>
              match prev with
              | Some s => match g s with
                          | EOk (a, t) r => EOk (Punct (removelast acc) a t) r
                          | EErr c e r => EErr c e r
                          | EBug => EBug
                          | EFuel => EFuel
                          end
              | None => EErr false e r
              end
          | EErr true e r => EErr true e r
          | EBug => EBug
          | EFuel => EFuel
          end
      | EErr true e r => EErr true e r
      | EBug => EBug
      | EFuel => EFuel
      end
  end.
Definition epunctuate {A} (f : eparser A) (g : eparser (A * bool)) : eparser (punct A) := fun i =>
  epunct_loop (S (length i)) f g [] None i.
Definition epunctuated {A} (ly : layer) (e : eparser A) : eparser (punct A) :=
  epunctuate (ebind e (fun a => ebind (ews ly (prim ly comma)) (fun _ => eret a)))
             (ebind e (fun a => ebind (eopt (ews ly (prim ly comma))) (fun t => eret (a, match t with Some _ => true | None => false end)))).
(** parser.rs L272-287 [surround]. *)
Definition esurround {A} (ly : layer) (open close : N) (p : eparser A) : eparser A :=
  ebind (prim ly (char open)) (fun _ => ecut (ebind p (fun a => ebind (ews ly (prim ly (char close))) (fun _ => eret a)))).

(** * Types: parser/types.rs *)
(** L70-97 [parse_basic]: both alternatives for keywords fail in place or are put back; the last one is a literal. *)
Definition eparse_basic : eparser pty :=
  ealt (ebind (prim LyType (take_while 2 basic_char)) (fun k => match basic_keyword k with Some p => eret (PPrim p) | None => efail LyType end))
  (ealt (ebind (prim LyType (tag (tx "box<string>"))) (fun _ => eret (PPrim PrBoxString)))
        (ebind (prim LyType (tag (tx "box<bytes>"))) (fun _ => eret (PPrim PrBoxBytes)))).
(** L103-111 [parse_single], L116-128 [parse_pair]. *)
Definition eparse_single (mk : pty -> pty) (p : eparser pty) : eparser pty := ecut (emap mk (esurround LyType 60 62 p)).
Definition eparse_pair (p : eparser pty) : eparser pty :=
  ecut (esurround LyType 60 62 (ebind p (fun k => ebind (prim LyType space0) (fun _ => ebind (prim LyType comma) (fun _ =>
    ebind (prim LyType space0) (fun _ => ebind p (fun v => eret (PHashMap k v)))))))).
(** L99-162 [parse_generic]. *)
Definition eparse_generic (p : eparser pty) : eparser pty :=
  ebind (prim LyType (take_while 3 generic_char)) (fun k =>
  if str_eqb k (tx "vec") then eparse_single PVec p
  else if str_eqb k (tx "hash_map") then eparse_pair p
  else if str_eqb k (tx "hash_set") then eparse_single PHashSet p
  else if str_eqb k (tx "option") then eparse_single POption p
  else if str_eqb k (tx "non_zero") then eparse_single PNonZero p
  else efail LyType).
(** L164-174 [parse_tuple], L176-189 [parse_array]. *)
Definition eparse_tuple (p : eparser pty) : eparser pty := emap PTuple (esurround LyType 40 41 (epunctuated LyType (ews LyType p))).
Definition eparse_array (p : eparser pty) : eparser pty :=
  esurround LyType 91 93 (ebind (ews LyType p) (fun t => ebind (ews LyType (prim LyType (char 59))) (fun _ =>
    ebind (ews LyType (prim LyType (dec_uint (2 ^ 32 - 1)))) (fun n => eret (PArray t n))))).
(** imports.rs L104-118 [parse_segment]. *)
Definition eparse_segment : eparser str := ecause LyImport CInvalidSegmentName (prim LyImport lower_name).
(** L191-231 [parse_external], [parse_external_name]. *)
Definition eparse_external (p : eparser pty) : eparser pty :=
  ebind (eopt (erepeat1 (ebind eparse_segment (fun s => ebind (prim LyType (tag (tx "::"))) (fun _ => eret s))))) (fun path =>
  ebind (prim LyType external_name) (fun name =>
  ebind (eopt (esurround LyType 60 62 (epunctuated LyType (ews LyType p)))) (fun gs =>
  eret (PExternal (match path with Some l => l | None => [] end) name gs)))).
(** L49-68 [parse]. *)
Fixpoint eparse_type (fuel : nat) (i : str) : eres pty :=
  match fuel with
  | O => EFuel
  | S n =>
     within LyType (fun i r => (offs i, offs r))
     (ealt eparse_basic
     (ealt (eparse_generic (eparse_type n))
     (ealt (eparse_tuple (eparse_type n))
     (ealt (eparse_array (eparse_type n))
           (eparse_external (eparse_type n)))))) i
  end.
Definition eptype : eparser pty := fun i => eparse_type (S (length i)) i.

(** * Ids, comments: parser.rs L130-141, L182-206 *)
Definition eparse_id : eparser N :=
  within LyId (fun _ r => (offs r, offs r)) (ebind (prim LyId (char 64)) (fun _ => prim LyId (dec_uint (2 ^ 32 - 1)))).
Definition ecomment_line : eparser str :=
  ebind (prim LyComment space0) (fun _ => ebind (prim LyComment (tag (tx "///"))) (fun _ => ebind (prim LyComment space0) (fun _ =>
  ebind (prim LyComment (take_till 0 (fun c => c =? 10))) (fun l => ebind (prim LyComment (char 10)) (fun _ => eret l))))).
Definition ecomments : eparser comment := within LyComment (fun i _ => from_until [10] i) (erepeat0 ecomment_line).

(** * Fields: parser/fields.rs *)
(** L116-128 [parse_unnamed_field], L130-150 [parse_named_field], L152-166 [parse_field_name]. *)
Definition eoptid (ly : layer) : eparser (option N) := eopt (ebind (prim ly space0) (fun _ => eparse_id)).
Definition eparse_unnamed_field : eparser ufield :=
  ebind (ews LyFields eptype) (fun t => ebind (eoptid LyFields) (fun i => eret (UField t i))).
Definition eparse_field_name : eparser str := ecause LyFields CInvalidName (prim LyFields lower_name).
Definition eparse_named_field : eparser nfield :=
  ebind (ews LyFields ecomments) (fun c =>
  ebind (prim LyFields space0) (fun _ => ebind eparse_field_name (fun n =>
  ebind (prim LyFields space0) (fun _ => ebind (prim LyFields (char 58)) (fun _ =>
  ebind (prim LyFields space0) (fun _ => ebind eptype (fun t =>
  ebind (eoptid LyFields) (fun i =>
  eret (NField c n t i))))))))).
(** L74-114 [parse]. *)
Definition eparse_fields : eparser pfields :=
  within LyFields (fun i _ => from_until [44; 10] i)
  (ebind (prim LyFields peek_any) (fun c =>
   if c =? 123 then emap FNamed (esurround LyFields 123 125 (epunctuated LyFields eparse_named_field))
   else if c =? 40 then emap FUnnamed (esurround LyFields 40 41 (epunctuated LyFields eparse_unnamed_field))
   else eret FUnit)).

(** parser/generics.rs L45-71. *)
Definition eparse_generics : eparser generics :=
  within LyGenerics (fun _ r => (offs r, offs r))
  (esurround LyGenerics 60 62 (epunctuated LyGenerics (ews LyGenerics (ecause LyGenerics CInvalidName (prim LyGenerics type_name))))).

(** parser/enums.rs L138-167 [parse_variant], [parse_variant_name]. *)
Definition eparse_variant : eparser pvariant :=
  ebind (ews LyEnum ecomments) (fun c =>
  ebind (prim LyEnum space0) (fun _ => ebind (ecause LyEnum CInvalidVariantName (prim LyEnum type_name)) (fun n =>
  ebind (prim LyEnum space0) (fun _ => ebind eparse_fields (fun fs =>
  ebind (eoptid LyEnum) (fun i =>
  eret (PVariant c n fs i))))))).

(** * Literals: parser/literals.rs *)
Section Lit.
Context {F : Type}.
Variable parse_f64 : str -> option F.

(** winnow [parse_to] and [verify_map]: the input is put back before failing. *)
Definition everify {A B} (ly : layer) (f : A -> option B) (p : eparser A) : eparser B := fun i =>
  match p i with
  | EOk a r => match f a with Some b => EOk b r | None => EErr false (from_input ly i) i end
  | EErr c e r => EErr c e r
  | EBug => EBug
  | EFuel => EFuel
  end.
(** L125-134 [parse_float]. *)
Definition efloat_text : eparser str :=
  ebind (eopt (prim LyLiteral (one_of is_sign))) (fun s =>
  ebind (prim LyLiteral (take_while 1 is_digit)) (fun a => ebind (prim LyLiteral (char 46)) (fun _ => ebind (prim LyLiteral (take_while 1 is_digit)) (fun b =>
  ebind (eopt (ebind (prim LyLiteral (one_of (fun c => (c =? 101) || (c =? 69)))) (fun c =>
               ebind (eopt (prim LyLiteral (one_of is_sign))) (fun s =>
               ebind (ecut (prim LyLiteral (take_while 1 is_digit))) (fun d =>
               eret (c :: sign_text s ++ d)))))) (fun e =>
  eret (sign_text s ++ a ++ 46 :: b ++ match e with Some t => t | None => [] end)))))).
Definition eparse_float : eparser F := everify LyLiteral parse_f64 efloat_text.
(** L136-146 [parse_int]. *)
Definition eparse_int : eparser Z :=
  ecause LyLiteral CInvalidInt
  (everify LyLiteral (fun '(s, d) => int_value s d)
    (ebind (eopt (prim LyLiteral (one_of is_sign))) (fun s => ebind (prim LyLiteral (take_while 1 is_digit)) (fun d => eret (s, d))))).
(** L208-220 [parse_string_unicode]. *)
Definition eparse_string_unicode : eparser N :=
  everify LyLiteral (fun h => if is_scalar (hex_value h) then Some (hex_value h) else None)
  (ebind (prim LyLiteral (char 117)) (fun _ =>
   ecut (ebind (prim LyLiteral (char 123)) (fun _ => ebind (prim LyLiteral (take_between 6 is_hex)) (fun h => ebind (prim LyLiteral (char 125)) (fun _ => eret h)))))).
(** L187-206 [parse_string_escaped_char]; [esc c v]: the character [c], standing for [v]. *)
Definition esc (c v : N) : eparser N := ebind (prim LyLiteral (char c)) (fun _ => eret v).
Definition eparse_escaped_char : eparser N :=
  ebind (prim LyLiteral (char 92)) (fun _ => ebind (prim LyLiteral peek_any) (fun c =>
  if c =? 110 then esc 110 10
  else if c =? 114 then esc 114 13
  else if c =? 116 then esc 116 9
  else if c =? 98 then esc 98 8
  else if c =? 102 then esc 102 12
  else if c =? 92 then esc 92 92
  else if c =? 0 then esc 0 0
  else if c =? 47 then esc 47 47
  else if c =? 34 then esc 34 34
  else if c =? 117 then eparse_string_unicode
  else efail LyLiteral)).
(** L172-185, L222-224 [parse_fragment]. *)
Definition eparse_fragment : eparser str :=
  ealt (prim LyLiteral (take_till 1 (fun c => (c =? 34) || (c =? 92))))
 (ealt (emap (fun c => [c]) eparse_escaped_char)
       (ebind (prim LyLiteral (char 92)) (fun _ => ebind (prim LyLiteral multispace1) (fun _ => eret [])))).
(** L148-164 [parse_string]. *)
Definition eparse_string : eparser str :=
  ebind (prim LyLiteral (char 34)) (fun _ => ecut (ebind (erepeat0 eparse_fragment) (fun l => ebind (prim LyLiteral (char 34)) (fun _ => eret (concat l))))).
(** L226-235 [parse_bytes]. *)
Definition eparse_bytes : eparser (list N) :=
  ebind (prim LyLiteral (char 91)) (fun _ =>
  ecut (ebind (eseparated1 (ews LyLiteral (prim LyLiteral (dec_uint 255))) (ews LyLiteral (prim LyLiteral comma))) (fun l =>
        ebind (eopt (ews LyLiteral (prim LyLiteral comma))) (fun _ => ebind (ews LyLiteral (prim LyLiteral (char 93))) (fun _ => eret l))))).
(** L90-115 [parse]. *)
Definition eparse_literal : eparser (lit F) :=
  within LyLiteral (fun i _ => (offs i, offs i))
  (ebind (prim LyLiteral peek_any) (fun c =>
   if c =? 116 then ebind (prim LyLiteral (tag (tx "true"))) (fun _ => eret (LBool true))
   else if c =? 102 then ebind (prim LyLiteral (tag (tx "false"))) (fun _ => eret (LBool false))
   else if is_sign c || is_digit c then ecut (ealt (emap LFloat eparse_float) (emap LInt eparse_int))
   else if c =? 34 then emap LString eparse_string
   else if c =? 91 then emap LBytes eparse_bytes
   else efail LyLiteral)).

(** * Attributes: parser/attributes.rs *)
(** L120-126 [parse_single_value]. *)
Definition eparse_single_value : eparser (lit F) :=
  ebind (prim LyAttribute space0) (fun _ => ebind (prim LyAttribute (char 61)) (fun _ => ebind (prim LyAttribute space0) (fun _ => eparse_literal))).
(** L71-77, L84-91 [parse_name] and L107-113. *)
Definition eattr_list (pv : eparser (attr_value F)) : eparser (list (attr F)) :=
  ebind (eseparated1 (ews LyAttribute (ebind (prim LyAttribute lower_name) (fun n => ebind pv (fun v => eret (Attr n v))))) (ews LyAttribute (prim LyAttribute comma))) (fun l =>
  ebind (eopt (prim LyAttribute comma)) (fun _ => eret l)).
(** L93-118 [parse_value], [parse_multi_value]. *)
Fixpoint eparse_value (fuel : nat) (i : str) : eres (attr_value F) :=
  match fuel with
  | O => EFuel
  | S n =>
     (ealt (ebind (prim LyAttribute (char 40)) (fun _ => emap AMulti (ecut (ebind (eattr_list (eparse_value n)) (fun l =>
             ebind (ews LyAttribute (prim LyAttribute (char 41))) (fun _ => eret l))))))
     (ealt (emap ASingle eparse_single_value) (eret AUnit))) i
  end.
Definition epvalue : eparser (attr_value F) := fun i => eparse_value (S (length i)) i.
(** L66-82 [parse_attribute]. *)
Definition eparse_attribute : eparser (list (attr F)) :=
  ebind (prim LyAttribute (char 35)) (fun _ => ebind (prim LyAttribute (char 91)) (fun _ =>
  ecut (ebind (eattr_list epvalue) (fun l => ebind (ews LyAttribute (prim LyAttribute (char 93))) (fun _ => eret l))))).
(** L48-64 [parse]. *)
Definition eattributes : eparser (list (attr F)) :=
  within LyAttribute (fun i _ => (offs i, offs i))
  (emap (@concat _) (erepeat0 (ebind eparse_attribute (fun l => ebind (prim LyAttribute (char 10)) (fun _ => eret l))))).

(** * Definitions *)
(** The keyword of a definition and the blanks behind it. *)
Definition ekeyword (ly : layer) (k : str) : eparser unit := ebind (prim ly (tag k)) (fun _ => prim ly space1).
(** parser/structs.rs L69-108 [parse], [parse_name]. *)
Definition eparse_struct : eparser (pdef F) :=
  within LyStruct (fun i _ => from_until [125; 10] i)
  (ebind (ekeyword LyStruct (tx "struct")) (fun _ =>
   ecut (ebind (ecause LyStruct CInvalidName (prim LyStruct type_name)) (fun n => ebind (eopt eparse_generics) (fun g =>
         ebind (prim LyStruct space0) (fun _ => ebind eparse_fields (fun fs => eret (PStruct [] [] n g fs)))))))).
(** parser/enums.rs L88-136 [parse], [parse_name], [parse_variants]. *)
Definition eparse_enum : eparser (pdef F) :=
  within LyEnum (fun _ r => (offs r, offs r))
  (ebind (ekeyword LyEnum (tx "enum")) (fun _ =>
   ecut (ebind (ecause LyEnum CInvalidName (prim LyEnum type_name)) (fun n => ebind (eopt eparse_generics) (fun g =>
         ebind (prim LyEnum space0) (fun _ => ebind (esurround LyEnum 123 125 (epunctuated LyEnum eparse_variant)) (fun vs =>
         eret (PEnum [] [] n g vs)))))))).
(** parser/aliases.rs L65-107. *)
Definition eparse_alias : eparser (pdef F) :=
  within LyAlias (fun _ r => (offs r, offs r))
  (ebind (ekeyword LyAlias (tx "type")) (fun _ =>
   ecut (ebind (ecause LyAlias CInvalidName (prim LyAlias type_name)) (fun n => ebind (eopt eparse_generics) (fun g =>
         ebind (prim LyAlias space0) (fun _ => ebind (prim LyAlias (char 61)) (fun _ =>
         ebind (prim LyAlias space0) (fun _ => ebind eptype (fun t =>
         ebind (prim LyAlias space0) (fun _ => ebind (prim LyAlias (char 59)) (fun _ => eret (PAlias [] n g t)))))))))))).
(** parser/consts.rs L78-128. *)
Definition eparse_const : eparser (pdef F) :=
  within LyConst (fun i _ => from_until [59] i)
  (ebind (ekeyword LyConst (tx "const")) (fun _ =>
   ecut (ebind (ecause LyConst CInvalidName (prim LyConst const_name)) (fun n => ebind (prim LyConst (char 58)) (fun _ =>
         ebind (prim LyConst space0) (fun _ => ebind eptype (fun t =>
         ebind (prim LyConst space0) (fun _ => ebind (prim LyConst (char 61)) (fun _ =>
         ebind (prim LyConst space0) (fun _ => ebind eparse_literal (fun v =>
         ebind (ecause LyConst (CUnexpectedChar 59) (prim LyConst (char 59))) (fun _ => eret (PConst [] n t v))))))))))))).
(** parser/imports.rs L65-102. *)
Definition eparse_import : eparser (pdef F) :=
  within LyImport (fun i _ => from_until [59] i)
  (ebind (ekeyword LyImport (tx "use")) (fun _ =>
   ecut (ebind (eseparated1 eparse_segment (prim LyImport (tag (tx "::")))) (fun l =>
         ebind (eopt (ebind (prim LyImport (tag (tx "::"))) (fun _ =>
                      ealt (ecause LyStruct CInvalidName (prim LyStruct type_name)) (ecause LyEnum CInvalidName (prim LyEnum type_name))))) (fun e =>
         ebind (prim LyImport (char 59)) (fun _ => eret (PImport l e))))))).
(** parser/modules.rs L62-105. *)
Definition eparse_module (d : eparser (pdef F)) : eparser (pdef F) :=
  within LyModule (fun i _ => from_until [125; 10] i)
  (ebind (ekeyword LyModule (tx "mod")) (fun _ =>
   ecut (ebind (ecause LyModule CInvalidName (prim LyModule lower_name)) (fun n => ebind (prim LyModule space0) (fun _ =>
         ebind (esurround LyModule 123 125 (erepeat0 (ews LyModule d))) (fun l => eret (PModule [] n l))))))).
(** parser.rs L76-96 [parse_definition]. *)
Fixpoint eparse_definition (fuel : nat) (i : str) : eres (pdef F) :=
  match fuel with
  | O => EFuel
  | S n =>
     (ebind (ews LyDefinition ecomments) (fun c => ebind (ews LyDefinition eattributes) (fun a => ebind (prim LyDefinition space0) (fun _ =>
      ebind (ebind (prim LyDefinition peek_any) (fun k =>
             if k =? 109 then eparse_module (eparse_definition n)
             else if k =? 115 then eparse_struct
             else if k =? 101 then eparse_enum
             else if k =? 99 then eparse_const
             else if k =? 116 then eparse_alias
             else if k =? 117 then eparse_import
             else efail LyDefinition)) (fun d =>
      eret (with_attributes a (with_comment c d))))))) i
  end.
Definition epdefinition : eparser (pdef F) := fun i => eparse_definition (S (length i)) i.
(** winnow [eof]. *)
Definition eeof (ly : layer) : eparser unit := fun i => match i with [] => EOk tt [] | _ => EErr false (from_input ly i) i end.
(** parser.rs L51-74 [parse_schema], and the end of the text demanded by winnow's [Parser::parse]. *)
Definition eparse_schema : eparser (pschema F) :=
  ebind (eopt (ebind (ews LySchema ecomments) (fun c => ebind (prim LySchema (char 10)) (fun _ => eret c)))) (fun c =>
  ebind (erepeat0 epdefinition) (fun ds => ebind (prim LySchema multispace0) (fun _ =>
  eret (PSchema (match c with Some c => c | None => [] end) ds)))).
End Lit.
End Err.

(** lib.rs L160-172 [Schema::parse]: the schema or the error. *)
Inductive parsed (F : Type) := Parsed (s : pschema F) | Rejected (e : err).
Arguments Parsed {F} s.
Arguments Rejected {F} e.
Definition parse_reporting {F} (parse_f64 : str -> option F) (src : str) : option (parsed F) :=
  match ebind (eparse_schema (bytes_len src) parse_f64) (fun s => ebind (eeof (bytes_len src) LySchema) (fun _ => eret s)) src with
  | EOk s _ => Some (Parsed s)
  | EErr _ e _ => Some (Rejected e)
  | EBug | EFuel => None
  end.

(** * What the user is shown *)

(** The [Display] of the errors: [msg(..)] of each [ParseError] (parser/*.rs) and of its causes.  "Parser error at offset .." for
    [Parser] causes is [None]. *)
Definition layer_msg (ly : layer) : option str :=
  match ly with
  | LySchema | LyDefinition => None
  | LyModule | LyId => Some (tx "Failed to parse id declaration")
  | LyStruct | LyAttribute => Some (tx "Failed to parse struct declaration")
  | LyEnum => Some (tx "Failed to parse enum declaration")
  | LyConst => Some (tx "Failed to parse const declaration")
  | LyAlias => Some (tx "Failed to parse type alias declaration")
  | LyImport => Some (tx "Failed to parse use declaration")
  | LyLiteral => Some (tx "Failed to parse literal value")
  | LyFields => Some (tx "Failed to parse fields declaration")
  | LyGenerics => Some (tx "Failed to parse generics declaration")
  | LyType => Some (tx "Failed to parse type definition")
  | LyComment => Some (tx "Failed to parse comment declaration")
  end.
Definition cause_msg (ly : layer) (c : cause) : option str :=
  match c with
  | CParser => None
  | CInvalidName => Some (match ly with
                          | LyModule => tx "Invalid module name" | LyStruct => tx "Invalid struct name" | LyEnum => tx "Invalid enum name"
                          | LyConst => tx "Invalid const name" | LyAlias => tx "Invalid alias name" | LyFields => tx "Invalid field name"
                          | _ => tx "TODO!"
                          end)
  | CInvalidVariantName => Some (tx "Invalid variant name")
  | CInvalidSegmentName => Some (tx "Invalid segment name")
  | CInvalidInt => Some (tx "Invalid integer literal")
  | CUnexpectedChar _ => Some (tx "Unexpected character")
  end.
(** compile.rs L33-233: the location of the innermost cause, as an empty range, and a message: the one of the innermost cause,
    or the one of the error around it if the cause is [Parser] (for import paths the cause's).  Comments and ids show the
    location of the error around the cause. *)
Record syntax_diagnostic := SyntaxDiagnostic { sd_range : Lsp.pos * Lsp.pos; sd_message : option str }.
Definition leaf_at (e : err) : N * N :=
  match er_layer e, rev (er_frames e) with
  | LyComment, f :: _ | LyId, f :: _ => fr_at f
  | _, _ => (er_at e, er_at e)
  end.
Definition leaf_msg (e : err) : option str :=
  match er_layer e, er_cause e with
  | LyImport, c => cause_msg LyImport c
  | ly, CParser => layer_msg ly
  | LyComment, _ => layer_msg LyComment
  | LyId, _ => layer_msg LyId
  | ly, c => cause_msg ly c
  end.
