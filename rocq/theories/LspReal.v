(** The language server with its handlers: [LspSession] with the analysis of [LspCompile] and the visitors of [LspVisit] in the place of its parameters. *)
From Verif Require Import Base Syntax Parser Compiler Meta Lsp SpanParser Diagnose LspVisit ErrParser LspCompile LspSession.
Local Open Scope N_scope.

(** The results of the three requests (crates/mabo-lsp/src/handlers/mod.rs L247-319); [None] is the result [null]. *)
Inductive answered_with :=
| AHover (h : option (hover_text * (Lsp.pos * Lsp.pos)))
| ASymbols (l : option (list (symbol (Lsp.pos * Lsp.pos))))
| ATokens (l : option (list sem_token)).

Section Real.
Context {F : Type} (parse_f64 : str -> option F) (pick : list str -> nat) (chk : bool).
(** handlers/mod.rs L346-355: what a file keeps.  A panic of [compile] ends the server; here it is kept as [LPanic] instead, which
    never happens in builds without overflow checks (PropErr.v, C73_no_panic), the only ones the theorems are about. *)
Definition doc_compile (uri src : str) (ix : index) : lres (analysis F) := lsp_compile parse_f64 pick chk src ix.
(** mod.rs L254-261, L284-290, L302-308: the schema and the index of a document without errors.  The syntax tree with locations is read
    again from the content of the file; it is the stored one (PropSpan.v, C63_same_schema).  [simplify] succeeds (PropCompiler.v, simplify_schema_total). *)
Definition good (sv : @server (lres (analysis F))) (uri : str) : option (index * lschema F) :=
  match document sv uri with
  | Some f => match f_schema f with
      | LOk (Good _) => option_map (pair (f_index f)) (lschema_parse parse_f64 (f_content f))
      | _ => None
      end
  | None => None
  end.
(** mod.rs L247-273 [hover], L275-293 [document_symbol], L295-319 [semantic_tokens_full]. *)
Definition respond (sv : @server (lres (analysis F))) (cfg : hover_cfg) (q : query) : lres answered_with :=
  match q with
  | QHover uri p =>
      match good sv uri with
      | Some (ix, s) => lbind (hover cfg chk ix s p) (fun h =>
          match h with
          | Some (HoverText _ (HNextId None), _) => LPanic
          | _ => LOk (AHover h)
          end)
      | None => LOk (AHover None)
      end
  | QSymbols uri =>
      match good sv uri with
      | Some (ix, s) => lbind (document_symbols ix s) (fun l => LOk (ASymbols (Some l)))
      | None => LOk (ASymbols None)
      end
  | QTokens uri =>
      match good sv uri with
      | Some (ix, s) => lbind (semantic_tokens chk ix s) (fun l => LOk (ATokens (Some l)))
      | None => LOk (ATokens None)
      end
  end.
End Real.
