(** The definition shown on a documentation page: crates/mabo-doc/src/templates.rs, the
    [print_schema] functions and the printers they use.

    Simplifications: the surrounding HTML, its escaping and the markdown rendering of comments are
    not modelled; writing into a [String] cannot fail. *)
From Verif Require Import Base Syntax Parser Printer Compiler.
Require Coq.Strings.String.
Import Coq.Strings.String.StringSyntax.
Local Open Scope N_scope.

(** templates.rs L277-337 [Display for PrintType].  The 19 types without parameters are written as
    in crates/mabo-parser/src/lib.rs L978-1010 (the two lists of strings were compared). *)
Fixpoint dp_type (t : sty) : str :=
  match t with
  | SPrim p => pr_prim p
  | SVec t => tx "vec<" ++ dp_type t ++ tx ">"
  | SHashMap k v => tx "hash_map<" ++ dp_type k ++ tx ", " ++ dp_type v ++ tx ">"
  | SHashSet t => tx "hash_set<" ++ dp_type t ++ tx ">"
  | SOption t => tx "option<" ++ dp_type t ++ tx ">"
  | SNonZero t => tx "non_zero<" ++ dp_type t ++ tx ">"
  | STuple ts => tx "(" ++ join (tx ", ") (map dp_type ts) ++ tx ")"
  | SArray t n => tx "[" ++ dp_type t ++ tx "; " ++ dec_str n ++ tx "]"
  | SExternal path name gs =>
      concat (map (fun s => s ++ tx "::") path) ++ name ++
      match gs with
      | [] => []
      | _ => tx "<" ++ join (tx ", ") (map dp_type gs) ++ tx ">"
      end
  end.

(** templates.rs L258-272 [Display for PrintField]. *)
Definition dp_field (k : skind) (f : sfield) : str :=
  match k with
  | SKNamed => sf_name f ++ tx ": " ++ dp_type (sf_ty f) ++ tx " @" ++ dec_str (sf_id f)
  | SKUnnamed => dp_type (sf_ty f) ++ tx " @" ++ dec_str (sf_id f)
  | SKUnit => []
  end.

(** templates.rs L77-86, L123-132, L180-189: the type parameters. *)
Definition dp_generics (g : list str) : str :=
  match g with [] => [] | _ => tx "<" ++ join (tx ", ") g ++ tx ">" end.

(** templates.rs L88-106 (structs, [pad] empty), L138-158 (variants, [pad] four spaces). *)
Definition dp_fields (pad : str) (fs : sfields) : str :=
  match ss_kind fs with
  | SKNamed => tx " {" ++ [10] ++
      concat (map (fun f => pad ++ tx "    " ++ dp_field SKNamed f ++ tx "," ++ [10]) (ss_fields fs)) ++
      pad ++ tx "}"
  | SKUnnamed => tx "(" ++ join (tx ", ") (map (dp_field SKUnnamed) (ss_fields fs)) ++ tx ")"
  | SKUnit => []
  end.

(** templates.rs L136-160: one variant. *)
Definition dp_variant (v : svariant) : str :=
  tx "    " ++ sv_name v ++ dp_fields (tx "    ") (sv_fields v) ++ tx " @" ++ dec_str (sv_id v) ++ tx "," ++ [10].

Section Def.
Context {F : Type}.
(** [Display for f64] and the Unicode tables of [Debug for str], as in Printer.v. *)
Variable fmt_f64 : F -> str.
Variable esc_u : N -> bool.

(** templates.rs L74-106 [StructDetail::print_schema], L120-163 [EnumDetail], L177-191
    [AliasDetail], L205-212 [ConstDetail]; L341-352 [PrintLiteral] has the same cases as the
    parser's own printer of literals.  Modules and imports have no such text. *)
Definition shown_text (d : sdef F) : option str :=
  match d with
  | SStruct _ n g fs => Some (tx "struct " ++ n ++ dp_generics g ++ dp_fields [] fs)
  | SEnum _ n g vs => Some (tx "enum " ++ n ++ dp_generics g ++ tx " {" ++ [10] ++ concat (map dp_variant vs) ++ tx "}")
  | SAlias _ n g t => Some (tx "type " ++ n ++ dp_generics g ++ tx " = " ++ dp_type t ++ tx ";")
  | SConst _ n t v => Some (tx "const " ++ n ++ tx ": " ++ dp_type t ++ tx " = " ++ pr_literal fmt_f64 esc_u v ++ tx ";")
  | SModule _ _ _ | SImport _ _ => None
  end.
End Def.

(** templates.rs L239-247 [first_comment]: the lines up to the first blank one; [blank] is
    [line.trim().is_empty()] (Unicode white space).  L249-255 [merge_comments]. *)
Fixpoint first_comment (blank : str -> bool) (c : list str) : str :=
  match c with
  | [] => []
  | l :: c' => if blank l then [] else l ++ [10] ++ first_comment blank c'
  end.
Definition merge_comments (c : list str) : str := concat (map (fun l => l ++ [10]) c).

(** ** What the claim says *)

(** [d] is one of the definitions [ds], or lies in one of their modules. *)
Inductive Within {F : Type} (d : sdef F) : list (sdef F) -> Prop :=
| here ds : In d ds -> Within d ds
| inner c n sub ds : In (SModule c n sub) ds -> Within d sub -> Within d ds.

(** A definition without its comments (a page has them elsewhere). *)
Definition bare_field (f : sfield) : sfield := SField [] (sf_name f) (sf_ty f) (sf_id f).
Definition bare_fields (fs : sfields) : sfields := SFields (ss_kind fs) (map bare_field (ss_fields fs)).
Definition bare_variant (v : svariant) : svariant := SVariant [] (sv_name v) (bare_fields (sv_fields v)) (sv_id v).
Definition bare {F : Type} (d : sdef F) : sdef F :=
  match d with
  | SStruct _ n g fs => SStruct [] n g (bare_fields fs)
  | SEnum _ n g vs => SEnum [] n g (map bare_variant vs)
  | SAlias _ n g t => SAlias [] n g t
  | SConst _ n t v => SConst [] n t v
  | d => d
  end.
