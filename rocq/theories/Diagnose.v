(** Validation with source locations: crates/mabo-compiler/src/validate, and the diagnostics the language server makes of its
    errors: crates/mabo-lsp/src/handlers/compile.rs.

    Compiler.v again, over the located syntax tree of SpanParser.v; [DiagnoseProofs.v] proves that without the locations the
    results are those of Compiler.v. *)
From Verif Require Import Base Syntax Parser Compiler Meta Lsp SpanParser LspVisit NameSpec.
Local Open Scope N_scope.

(** The [first] and [second], or the [declared] location of an error. *)
Inductive place :=
| Two (first second : loc)
| One (declared : loc).
Definition lverr := (verr * place)%type.

(** lib.rs L61-75 [IdGenerator::next_with_span]: the location of an id is the one of its declaration or, if there is none, the
    one of the whole item. *)
Definition mark (id : option lid) (whole : loc) : loc := match id with Some (_, l) => l | None => whole end.

(** ids.rs L104-131, L141-156, L163-177: the three loops over variants, named and unnamed fields; [inner] is what is checked
    inside an item. *)
Section Ids.
Context {A : Type}.
Variables (id : A -> option lid) (whole : A -> loc) (err : N -> A -> A -> verr) (inner : A -> cres lverr unit) (chk : bool).
Fixpoint dup_ids (st : N) (seen : list (N * (A * loc))) (l : list A) : cres lverr unit :=
  match l with
  | [] => COk tt
  | a :: l' =>
      match gen_next chk st (er_id (id a)) with
      | None => CPanic
      | Some (i, st') =>
          match visited i seen with
          | Some (other, first) => CErr (err i a other, Two first (mark (id a) (whole a)))
          | None => cbind (inner a) (fun _ => dup_ids st' ((i, (a, mark (id a) (whole a))) :: seen) l')
          end
      end
  end.
End Ids.
(** ids.rs L135-181 [validate_field_ids]. *)
Definition lfield_ids (chk : bool) (fs : lfields) : cres lverr unit :=
  match fs with
  | LFNamed _ _ l =>
      dup_ids lnf_id lnf_loc (fun i f other => DuplicateNamedFieldId i (ln_text (lnf_name f)) (ln_text (lnf_name other))) (fun _ => COk tt) chk 1 [] (map fst (p_values l))
  | LFUnnamed _ _ l =>
      dup_ids (fun e => luf_id (snd e)) (fun e => luf_loc (snd e)) (fun i e other => DuplicateUnnamedFieldId i (fst e + 1) (fst other + 1)) (fun _ => COk tt) chk 1 []
        (combine (seq 0 (p_len l)) (map fst (p_values l)))
  | LFUnit => COk tt
  end.
(** ids.rs L100-131 [validate_enum_ids]. *)
Definition lenum_ids (chk : bool) (vs : lpunct lvariant) : cres lverr unit :=
  dup_ids lv_id lv_loc (fun i v other => DuplicateVariantId i (ln_text (lv_name v)) (ln_text (lv_name other))) (fun v => lfield_ids chk (lv_fields v)) chk 1 [] (map fst (p_values vs)).

(** names.rs L76-99, L106-121, L126-155, generics.rs L100-114: the loops over names. *)
Fixpoint seen_at (n : str) (seen : list lname) : option loc :=
  match seen with
  | [] => None
  | m :: seen' => if str_eqb n (ln_text m) then Some (ln_loc m) else seen_at n seen'
  end.
Section Names.
Context {A : Type}.
Variables (name : A -> lname) (err : str -> verr) (inner : A -> cres lverr unit).
Fixpoint dup_names (seen : list lname) (l : list A) : cres lverr unit :=
  match l with
  | [] => COk tt
  | a :: l' =>
      match seen_at (ln_text (name a)) seen with
      | Some first => CErr (err (ln_text (name a)), Two first (ln_loc (name a)))
      | None => cbind (inner a) (fun _ => dup_names (name a :: seen) l')
      end
  end.
End Names.
(** names.rs L102-124 [validate_field_names]. *)
Definition lfield_names (fs : lfields) : cres lverr unit :=
  match fs with
  | LFNamed _ _ l => dup_names lnf_name DuplicateFieldName (fun _ => COk tt) [] (map fst (p_values l))
  | _ => COk tt
  end.
(** names.rs L76-99 [validate_enum_names]. *)
Definition lenum_names (vs : lpunct lvariant) : cres lverr unit :=
  dup_names lv_name DuplicateVariantName (fun v => lfield_names (lv_fields v)) [] (map fst (p_values vs)).
(** names.rs L131-143: the name a definition introduces into its module. *)
Definition lintroduces {F} (d : ldef F) : list lname :=
  match d with
  | LModule _ _ n _ _ _ | LStruct _ _ _ n _ _ | LEnum _ _ _ n _ _ _ _ | LAlias _ _ n _ _ _ _ | LConst _ _ n _ _ _ _ _ _ => [n]
  | LImport _ _ (Some (_, n)) _ => [n]
  | LImport _ segs None _ => match rev segs with n :: _ => [n] | [] => [] end
  end.
(** names.rs L126-155 [validate_names_in_module]. *)
Definition lmodule_names {F} (ds : list (ldef F)) : cres lverr unit :=
  dup_names (fun n => n) DuplicateNameInModule (fun _ => COk tt) [] (flat_map lintroduces ds).

(** The types of fields. *)
Definition lfield_types (fs : lfields) : list lty :=
  match fs with
  | LFNamed _ _ l => map (fun e => lnf_ty (fst e)) (p_values l)
  | LFUnnamed _ _ l => map (fun e => luf_ty (fst e)) (p_values l)
  | LFUnit => []
  end.
(** generics.rs L116-139; which parameters are used does not depend on locations, so the visit is the one of Compiler.v. *)
Definition lremove_visited (unvisited : list lname) (e : list str * str * option (punct pty)) : list lname :=
  match e with
  | ([], name, None) => filter (fun n => negb (str_eqb (ln_text n) name)) unvisited
  | _ => unvisited
  end.
Definition lfield_generics (fs : lfields) (unvisited : list lname) : list lname :=
  fold_left lremove_visited (flat_map externals (field_types (er_fields fs))) unvisited.
(** generics.rs L48-70, L73-97. *)
Definition lgenerics_ok (pick : list str -> nat) (g : option lgenerics) (fss : list lfields) : cres lverr unit :=
  match g with
  | None => COk tt
  | Some g =>
      cbind (dup_names (fun n => n) DuplicateGenericName (fun _ => COk tt) [] (map fst (p_values g))) (fun _ =>
        let left := fold_left (fun u fs => lfield_generics fs u) fss (map fst (p_values g)) in
        match nth_error left (Nat.modulo (pick (map ln_text left)) (length left)) with
        | Some n => CErr (UnusedGeneric (ln_text n), One (ln_loc n))
        | None => COk tt
        end)
  end.
(** tuples.rs L72-87 [validate_tuple_size]: the location is the one of the whole type. *)
Definition ltuple_size (t : lty) : cres lverr unit :=
  match bad_tuple (er_ty t) with Some a => CErr (TupleSize a, One (lty_loc t)) | None => COk tt end.
Definition lfield_tuples (fs : lfields) : cres lverr unit := each ltuple_size (lfield_types fs).

(** validate/mod.rs L70-103. *)
Fixpoint lvalidate_definition {F} (pick : list str -> nat) (chk : bool) (d : ldef F) : cres lverr unit :=
  match d with
  | LModule _ _ _ _ _ ds => cbind (lmodule_names ds) (fun _ => each (lvalidate_definition pick chk) ds)
  | LStruct _ _ _ _ g fs =>
      cbind (lfield_ids chk fs) (fun _ =>
      cbind (lfield_names fs) (fun _ =>
      cbind (lgenerics_ok pick g [fs]) (fun _ => lfield_tuples fs)))
  | LEnum _ _ _ _ g _ _ vs =>
      cbind (lenum_ids chk vs) (fun _ =>
      cbind (lenum_names vs) (fun _ =>
      cbind (lgenerics_ok pick g (map (fun e => lv_fields (fst e)) (p_values vs))) (fun _ =>
      each (fun e => lfield_tuples (lv_fields (fst e))) (p_values vs))))
  | LAlias _ _ _ _ _ t _ => ltuple_size t
  | LConst _ _ _ _ t _ _ _ _ => ltuple_size t
  | LImport _ _ _ _ => COk tt
  end.
Definition lvalidate_schema {F} (pick : list str -> nat) (chk : bool) (s : lschema F) : cres lverr unit :=
  cbind (lmodule_names (ls_defs s)) (fun _ => each (lvalidate_definition pick chk) (ls_defs s)).

(** * The diagnostic *)

(** compile.rs L235-272 [validate_schema_diagnostic]: the range, the message (here the error) and the related location.
    The [expect] of [get_range] makes an error a panic. *)
Record diagnostic := Diagnostic { dg_range : Lsp.pos * Lsp.pos; dg_error : verr; dg_related : option (Lsp.pos * Lsp.pos) }.
Definition expect_range (ix : index) (l : loc) : lres (Lsp.pos * Lsp.pos) := match get_range ix l with LErr => LPanic | r => r end.
Definition validate_diagnostic (ix : index) (e : lverr) : lres diagnostic :=
  match e with
  | (v, Two first second) =>
      lbind (expect_range ix second) (fun r => lbind (expect_range ix first) (fun q => LOk (Diagnostic r v (Some q))))
  | (v, One declared) => lbind (expect_range ix declared) (fun r => LOk (Diagnostic r v None))
  end.
