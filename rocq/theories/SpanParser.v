(** The schema parser with source locations: crates/mabo-parser/src/parser.rs, parser/*.rs and the [span] fields of the
    syntax tree (lib.rs, token.rs).

    Parser.v again, with winnow's [with_span] and [span] (the byte range consumed by a parser; [LocatingSlice] counts bytes).
    [SpanProofs.v] proves that without the locations the results are those of Parser.v.

    Simplifications: the locations inside attributes, the combined location of an import ([Import::full]) and the locations
    of the angles of a definition's generics, which nothing reads, are dropped. *)
From Verif Require Import Base Syntax Parser Lsp.
Require Coq.Strings.String.
Import Coq.Strings.String.StringSyntax.
Local Open Scope N_scope.

(** lib.rs [Span]: start and end in bytes. *)
Definition loc := (N * N)%type.

(** lib.rs [Name], [CommentLine] (a text and its location). *)
Record lname := LName { ln_text : str; ln_loc : loc }.
Definition lcomment := list lname.
(** punctuated.rs [Punctuated]: each element with the comma behind it. *)
Definition lpunct (A : Type) := punct (A * option loc).

(** lib.rs [DataType], [Type], [ExternalType].  The first location of each constructor is the one of [Type]. *)
Inductive lkind := KVec | KHashSet | KOption | KNonZero.
Inductive lty :=
| LTPrim (s : loc) (p : prim)
| LTOne (s : loc) (k : lkind) (kw open close : loc) (t : lty)
| LTMap (s kw open close : loc) (k : lty) (com : loc) (v : lty)
| LTTuple (s open close : loc) (ts : lpunct lty)
| LTArray (s open close : loc) (t : lty) (semi : loc) (n : N)
| LTExt (s : loc) (path : list (lname * loc)) (name : lname) (gs : option ((loc * loc) * lpunct lty)).

(** lib.rs [Id], [NamedField], [UnnamedField], [Fields], [Variant], [Generics], [Literal]. *)
Definition lid := (N * loc)%type.
Record lnfield := LNField { lnf_comment : lcomment; lnf_name : lname; lnf_colon : loc; lnf_ty : lty; lnf_id : option lid; lnf_loc : loc }.
Record lufield := LUField { luf_ty : lty; luf_id : option lid; luf_loc : loc }.
Inductive lfields :=
| LFNamed (open close : loc) (l : lpunct lnfield)
| LFUnnamed (open close : loc) (l : lpunct lufield)
| LFUnit.
Record lvariant := LVariant { lv_comment : lcomment; lv_name : lname; lv_fields : lfields; lv_id : option lid; lv_loc : loc }.
Definition lgenerics := lpunct lname.

(** lib.rs [Definition] and the structures it holds. *)
Inductive ldef (F : Type) :=
| LModule (c : lcomment) (kw : loc) (name : lname) (open close : loc) (ds : list (ldef F))
| LStruct (c : lcomment) (a : list (attr F)) (kw : loc) (name : lname) (g : option lgenerics) (fs : lfields)
| LEnum (c : lcomment) (a : list (attr F)) (kw : loc) (name : lname) (g : option lgenerics) (open close : loc) (vs : lpunct lvariant)
| LAlias (c : lcomment) (kw : loc) (name : lname) (g : option lgenerics) (eq : loc) (t : lty) (semi : loc)
| LConst (c : lcomment) (kw : loc) (name : lname) (colon : loc) (t : lty) (eq : loc) (v : lit F) (vloc : loc) (semi : loc)
| LImport (kw : loc) (segs : list lname) (el : option (loc * lname)) (semi : loc).
Arguments LModule {F} c kw name open close ds.
Arguments LStruct {F} c a kw name g fs.
Arguments LEnum {F} c a kw name g open close vs.
Arguments LAlias {F} c kw name g eq t semi.
Arguments LConst {F} c kw name colon t eq v vloc semi.
Arguments LImport {F} kw segs el semi.
Record lschema (F : Type) := LSchema { ls_comment : lcomment; ls_defs : list (ldef F) }.
Arguments LSchema {F} ls_comment ls_defs.
Arguments ls_comment {F} l.
Arguments ls_defs {F} l.

Section Span.
(** Length of the whole text in bytes. *)
Variable total : N.
(** winnow [Location::current_token_start] when [i] is left. *)
Definition offs (i : str) : N := total - bytes_len i.
(** winnow [with_span], [span]. *)
Definition with_span {A} (p : parser A) : parser (A * loc) := fun i =>
  match p i with
  | POk a r => POk (a, (offs i, offs r)) r
  | PBack => PBack
  | PCut => PCut
  | PBug => PBug
  | PFuel => PFuel
  end.
Definition span_of {A} (p : parser A) : parser loc := pmap snd (with_span p).
Definition lnamed (p : parser str) : parser lname := pmap (fun '(s, l) => LName s l) (with_span p).

(** token.rs L60-66, L129: keywords and punctuation are parsed with their location. *)
Definition lcomma : parser loc := span_of comma.
(** parser.rs L219-270 [punctuate] with commas. *)
Definition lpunctuated {A} (e : parser A) : parser (lpunct A) :=
  punctuate (pdo a <- e; pdo s <- ws lcomma; pret (a, Some s))
            (pdo a <- e; pdo t <- opt (ws lcomma); pret ((a, t), match t with Some _ => true | None => false end)).
(** parser.rs L272-287 [surround]. *)
Definition lsurround {A} (open close : N) (p : parser A) : parser ((loc * loc) * A) :=
  pdo o <- span_of (char open);
  cut_err (pdo a <- p; pdo c <- ws (span_of (char close)); pret ((o, c), a)).

(** * Types: parser/types.rs.  What is parsed before the location of the whole type is known is a function of it. *)

(** L70-97 [parse_basic]. *)
Definition lparse_basic : parser (loc -> lty) :=
  pdo t <- parse_basic;
  match t with PPrim p => pret (fun s => LTPrim s p) | _ => pfail end.
(** L103-111 [parse_single], L116-128 [parse_pair]. *)
Definition lparse_single (k : lkind) (kw : loc) (p : parser lty) : parser (loc -> lty) :=
  cut_err (pmap (fun '((o, c), t) => fun s => LTOne s k kw o c t) (lsurround 60 62 p)).
Definition lparse_pair (kw : loc) (p : parser lty) : parser (loc -> lty) :=
  cut_err (pmap (fun '((o, c), (k, m, v)) => fun s => LTMap s kw o c k m v)
    (lsurround 60 62 (pdo k <- p; space0 ;; pdo m <- lcomma; space0 ;; pdo v <- p; pret (k, m, v)))).
(** L99-162 [parse_generic]. *)
Definition lparse_generic (p : parser lty) : parser (loc -> lty) :=
  pdo (k, kw) <- with_span (take_while 3 generic_char);
  if str_eqb k (tx "vec") then lparse_single KVec kw p
  else if str_eqb k (tx "hash_map") then lparse_pair kw p
  else if str_eqb k (tx "hash_set") then lparse_single KHashSet kw p
  else if str_eqb k (tx "option") then lparse_single KOption kw p
  else if str_eqb k (tx "non_zero") then lparse_single KNonZero kw p
  else pfail.
(** L164-174 [parse_tuple], L176-189 [parse_array], L191-220 [parse_external]. *)
Definition lparse_tuple (p : parser lty) : parser (loc -> lty) :=
  pmap (fun '((o, c), ts) => fun s => LTTuple s o c ts) (lsurround 40 41 (lpunctuated (ws p))).
Definition lparse_array (p : parser lty) : parser (loc -> lty) :=
  pmap (fun '((o, c), (t, m, n)) => fun s => LTArray s o c t m n)
    (lsurround 91 93 (pdo t <- ws p; pdo m <- ws (span_of (char 59)); pdo n <- ws (dec_uint (2 ^ 32 - 1)); pret (t, m, n))).
Definition lparse_external (p : parser lty) : parser (loc -> lty) :=
  pdo path <- opt (repeat1 (pdo s <- lnamed lower_name; pdo d <- span_of (tag (tx "::")); pret (s, d)));
  pdo name <- lnamed external_name;
  pdo gs <- opt (lsurround 60 62 (lpunctuated (ws p)));
  pret (fun s => LTExt s (match path with Some l => l | None => [] end) name gs).
(** L49-68 [parse]. *)
Fixpoint lparse_type (fuel : nat) (i : str) : pres lty :=
  match fuel with
  | O => PFuel
  | S n =>
     pmap (fun '(f, s) => f s) (with_span
     (alt lparse_basic
     (alt (lparse_generic (lparse_type n))
     (alt (lparse_tuple (lparse_type n))
     (alt (lparse_array (lparse_type n))
          (lparse_external (lparse_type n))))))) i
  end.
Definition lptype : parser lty := fun i => lparse_type (S (length i)) i.

(** parser.rs L130-141 [ids::parse], L182-206 [comments::parse]. *)
Definition lparse_id : parser lid := with_span parse_id.
Definition lcomment_line : parser lname :=
  space0 ;; pdo l <- lnamed (tag (tx "///") ;; space0 ;; take_till 0 (fun c => c =? 10)); char 10 ;; pret l.
Definition lcomments : parser lcomment := repeat0 lcomment_line.

(** * Fields: parser/fields.rs L116-128, L130-150, L74-114; generics.rs L45-58; enums.rs L138-156 *)
Definition lparse_unnamed_field : parser lufield :=
  pmap (fun '((t, i), s) => LUField t i s)
    (with_span (pdo t <- ws lptype; pdo i <- opt (space0 ;; lparse_id); pret (t, i))).
Definition lparse_named_field : parser lnfield :=
  pdo c <- ws lcomments;
  pmap (fun '((n, m, t, i), s) => LNField c n m t i s)
    (with_span (space0 ;; pdo n <- lnamed lower_name;
                space0 ;; pdo m <- span_of (char 58);
                space0 ;; pdo t <- lptype;
                pdo i <- opt (space0 ;; lparse_id);
                pret (n, m, t, i))).
Definition lparse_fields : parser lfields :=
  pdo c <- peek_any;
  if c =? 123 then pmap (fun '((o, c), l) => LFNamed o c l) (lsurround 123 125 (lpunctuated lparse_named_field))
  else if c =? 40 then pmap (fun '((o, c), l) => LFUnnamed o c l) (lsurround 40 41 (lpunctuated lparse_unnamed_field))
  else pret LFUnit.
Definition lparse_generics : parser lgenerics := pmap snd (lsurround 60 62 (lpunctuated (ws (lnamed type_name)))).
Definition lparse_variant : parser lvariant :=
  pdo c <- ws lcomments;
  pmap (fun '((n, fs, i), s) => LVariant c n fs i s)
    (with_span (space0 ;; pdo n <- lnamed type_name;
                space0 ;; pdo fs <- lparse_fields;
                pdo i <- opt (space0 ;; lparse_id);
                pret (n, fs, i))).

(** * Definitions *)
Context {F : Type}.
Variable parse_f64 : str -> option F.
(** parser/structs.rs L69-95, enums.rs L88-113, aliases.rs L65-94, consts.rs L78-112, imports.rs L65-102, modules.rs L62-89. *)
Definition lparse_struct : parser (ldef F) :=
  pdo kw <- span_of (tag (tx "struct")); space1 ;;
  cut_err (pdo n <- lnamed type_name; pdo g <- opt lparse_generics; space0 ;; pdo fs <- lparse_fields;
           pret (LStruct [] [] kw n g fs)).
Definition lparse_enum : parser (ldef F) :=
  pdo kw <- span_of (tag (tx "enum")); space1 ;;
  cut_err (pdo n <- lnamed type_name; pdo g <- opt lparse_generics; space0 ;;
           pdo ((o, c), vs) <- lsurround 123 125 (lpunctuated lparse_variant);
           pret (LEnum [] [] kw n g o c vs)).
Definition lparse_alias : parser (ldef F) :=
  pdo kw <- span_of (tag (tx "type")); space1 ;;
  cut_err (pdo n <- lnamed type_name; pdo g <- opt lparse_generics; space0 ;; pdo e <- span_of (char 61);
           space0 ;; pdo t <- lptype; space0 ;; pdo m <- span_of (char 59); pret (LAlias [] kw n g e t m)).
Definition lparse_const : parser (ldef F) :=
  pdo kw <- span_of (tag (tx "const")); space1 ;;
  cut_err (pdo n <- lnamed const_name; pdo k <- span_of (char 58); space0 ;; pdo t <- lptype; space0 ;; pdo e <- span_of (char 61);
           space0 ;; pdo (v, vl) <- with_span (parse_literal parse_f64); pdo m <- span_of (char 59); pret (LConst [] kw n k t e v vl m)).
Definition lparse_import : parser (ldef F) :=
  pdo kw <- span_of (tag (tx "use")); space1 ;;
  cut_err (pdo l <- separated1 (lnamed lower_name) (tag (tx "::"));
           pdo e <- opt (pdo d <- span_of (tag (tx "::")); pdo n <- alt (lnamed type_name) (lnamed type_name); pret (d, n));
           pdo m <- span_of (char 59); pret (LImport kw l e m)).
Definition lparse_module (d : parser (ldef F)) : parser (ldef F) :=
  pdo kw <- span_of (tag (tx "mod")); space1 ;;
  cut_err (pdo n <- lnamed lower_name; space0 ;; pdo ((o, c), l) <- lsurround 123 125 (repeat0 (ws d));
           pret (LModule [] kw n o c l)).
(** lib.rs L226-250 [with_comment], [with_attributes]. *)
Definition lwith_comment (c : lcomment) (d : ldef F) : ldef F :=
  match d with
  | LModule _ kw n o e ds => LModule c kw n o e ds
  | LStruct _ a kw n g fs => LStruct c a kw n g fs
  | LEnum _ a kw n g o e vs => LEnum c a kw n g o e vs
  | LAlias _ kw n g e t m => LAlias c kw n g e t m
  | LConst _ kw n k t e v vl m => LConst c kw n k t e v vl m
  | LImport kw s e m => LImport kw s e m
  end.
Definition lwith_attributes (a : list (attr F)) (d : ldef F) : ldef F :=
  match d with
  | LStruct c _ kw n g fs => LStruct c a kw n g fs
  | LEnum c _ kw n g o e vs => LEnum c a kw n g o e vs
  | d => d
  end.
(** parser.rs L76-96 [parse_definition], L51-74 [parse_schema]. *)
Fixpoint lparse_definition (fuel : nat) (i : str) : pres (ldef F) :=
  match fuel with
  | O => PFuel
  | S n =>
     (pdo c <- ws lcomments; pdo a <- ws (attributes parse_f64); space0 ;;
      pdo d <- (pdo k <- peek_any;
                if k =? 109 then lparse_module (lparse_definition n)
                else if k =? 115 then lparse_struct
                else if k =? 101 then lparse_enum
                else if k =? 99 then lparse_const
                else if k =? 116 then lparse_alias
                else if k =? 117 then lparse_import
                else pfail);
      pret (lwith_attributes a (lwith_comment c d))) i
  end.
Definition lpdefinition : parser (ldef F) := fun i => lparse_definition (S (length i)) i.
Definition lparse_schema : parser (lschema F) :=
  pdo c <- opt (pdo c <- ws lcomments; char 10 ;; pret c);
  pdo ds <- repeat0 lpdefinition; multispace0 ;;
  pret (LSchema (match c with Some c => c | None => [] end) ds).
End Span.

(** lib.rs L160-172 [Schema::parse]. *)
Definition lschema_parse {F} (parse_f64 : str -> option F) (i : str) : option (lschema F) :=
  match lparse_schema (bytes_len i) parse_f64 i with POk s [] => Some s | _ => None end.

(** * Forgetting the locations *)
Definition p_map {A B} (f : A -> B) (p : punct A) : punct B :=
  let 'Punct l x b := p in Punct (map f l) (f x) b.
Definition er_comment (c : lcomment) : comment := map ln_text c.
Fixpoint er_ty (t : lty) : pty :=
  match t with
  | LTPrim _ p => PPrim p
  | LTOne _ KVec _ _ _ t => PVec (er_ty t)
  | LTOne _ KHashSet _ _ _ t => PHashSet (er_ty t)
  | LTOne _ KOption _ _ _ t => POption (er_ty t)
  | LTOne _ KNonZero _ _ _ t => PNonZero (er_ty t)
  | LTMap _ _ _ _ k _ v => PHashMap (er_ty k) (er_ty v)
  | LTTuple _ _ _ (Punct l x b) => PTuple (Punct (map (fun e => er_ty (fst e)) l) (er_ty (fst x)) b)
  | LTArray _ _ _ t _ n => PArray (er_ty t) n
  | LTExt _ path n None => PExternal (map (fun e => ln_text (fst e)) path) (ln_text n) None
  | LTExt _ path n (Some (_, Punct l x b)) =>
      PExternal (map (fun e => ln_text (fst e)) path) (ln_text n) (Some (Punct (map (fun e => er_ty (fst e)) l) (er_ty (fst x)) b))
  end.
Definition er_id (i : option lid) : option N := option_map fst i.
Definition er_nfield (f : lnfield) : nfield := NField (er_comment (lnf_comment f)) (ln_text (lnf_name f)) (er_ty (lnf_ty f)) (er_id (lnf_id f)).
Definition er_ufield (f : lufield) : ufield := UField (er_ty (luf_ty f)) (er_id (luf_id f)).
Definition er_fields (fs : lfields) : pfields :=
  match fs with
  | LFNamed _ _ l => FNamed (p_map (fun e => er_nfield (fst e)) l)
  | LFUnnamed _ _ l => FUnnamed (p_map (fun e => er_ufield (fst e)) l)
  | LFUnit => FUnit
  end.
Definition er_variant (v : lvariant) : pvariant := PVariant (er_comment (lv_comment v)) (ln_text (lv_name v)) (er_fields (lv_fields v)) (er_id (lv_id v)).
Definition er_generics (g : option lgenerics) : option generics := option_map (p_map (fun e => ln_text (fst e))) g.
Fixpoint er_def {F} (d : ldef F) : pdef F :=
  match d with
  | LModule c _ n _ _ ds => PModule (er_comment c) (ln_text n) (map er_def ds)
  | LStruct c a _ n g fs => PStruct (er_comment c) a (ln_text n) (er_generics g) (er_fields fs)
  | LEnum c a _ n g _ _ vs => PEnum (er_comment c) a (ln_text n) (er_generics g) (p_map (fun e => er_variant (fst e)) vs)
  | LAlias c _ n g _ t _ => PAlias (er_comment c) (ln_text n) (er_generics g) (er_ty t)
  | LConst c _ n _ t _ v _ _ => PConst (er_comment c) (ln_text n) (er_ty t) v
  | LImport _ segs el _ => PImport (map ln_text segs) (option_map (fun e => ln_text (snd e)) el)
  end.
Definition er_schema {F} (s : lschema F) : pschema F := PSchema (er_comment (ls_comment s)) (map er_def (ls_defs s)).
