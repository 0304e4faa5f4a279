(** The language server's analysis of a document: crates/mabo-lsp/src/handlers/compile.rs L17-25 [compile]. *)
From Verif Require Import Base Syntax Parser Compiler Lsp SpanParser ErrParser Diagnose.
Local Open Scope N_scope.

(** [Result<Schema, Diagnostic>]. *)
Inductive analysis (F : Type) :=
| Good (s : pschema F)
| BadSyntax (d : syntax_diagnostic)
| Invalid (d : diagnostic).
Arguments Good {F} s.
Arguments BadSyntax {F} d.
Arguments Invalid {F} d.

(** L33-233 [parse_schema_diagnostic]. *)
Definition parse_diagnostic (ix : index) (e : err) : lres syntax_diagnostic :=
  lbind (expect_range ix (leaf_at e)) (fun r => LOk (SyntaxDiagnostic r (leaf_msg e))).
(** L17-25.  The parser is modelled twice, for its errors (ErrParser.v) and for the locations in its result (SpanParser.v); [LPanic] if the
    two disagree or one of them does not return, which PropErr.v shows never happens. *)
Definition lsp_compile {F} (parse_f64 : str -> option F) (pick : list str -> nat) (chk : bool) (src : str) (ix : index) : lres (analysis F) :=
  match parse_reporting parse_f64 src with
  | Some (Rejected e) => lbind (parse_diagnostic ix e) (fun d => LOk (BadSyntax d))
  | Some (Parsed s) =>
      match lschema_parse parse_f64 src with
      | Some ls =>
          match lvalidate_schema pick chk ls with
          | COk _ => LOk (Good s)
          | CErr e => lbind (validate_diagnostic ix e) (fun d => LOk (Invalid d))
          | CPanic => LPanic
          end
      | None => LPanic
      end
  | None => LPanic
  end.
