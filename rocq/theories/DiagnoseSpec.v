(** Specification of the locations in validation errors. *)
From Verif Require Import Base Syntax Parser Printer Compiler CompilerSpec Lsp SpanParser NameSpec Diagnose.
Local Open Scope N_scope.

(** [b] is the first element of [l] with the key of an earlier one, [a]. *)
Definition first_repeat {A K} (key : A -> K) (l : list A) (a b : A) : Prop :=
  exists l1 l2 l3, l = l1 ++ a :: l2 ++ b :: l3 /\ key a = key b /\ NoDup (map key (l1 ++ a :: l2)).

(** All definitions of a schema, and the parts of each. *)
Fixpoint all_defs {F} (d : ldef F) : list (ldef F) :=
  d :: match d with LModule _ _ _ _ _ ds => flat_map all_defs ds | _ => [] end.
Definition schema_defs {F} (s : lschema F) : list (ldef F) := flat_map all_defs (ls_defs s).
Definition bodies {F} (s : lschema F) : list (list (ldef F)) :=
  ls_defs s :: flat_map (fun d => match d with LModule _ _ _ _ _ ds => [ds] | _ => [] end) (schema_defs s).
Definition variants_of {F} (d : ldef F) : list lvariant := match d with LEnum _ _ _ _ _ _ _ vs => map fst (p_values vs) | _ => [] end.
Definition fields_of {F} (d : ldef F) : list lfields :=
  match d with LStruct _ _ _ _ _ fs => [fs] | LEnum _ _ _ _ _ _ _ _ => map lv_fields (variants_of d) | _ => [] end.
Definition params_of {F} (d : ldef F) : list lname :=
  match d with LStruct _ _ _ _ (Some g) _ | LEnum _ _ _ _ (Some g) _ _ _ => map fst (p_values g) | _ => [] end.
Definition types_in (fs : lfields) : list lty :=
  match fs with
  | LFNamed _ _ l => map (fun f => lnf_ty (fst f)) (p_values l)
  | LFUnnamed _ _ l => map (fun f => luf_ty (fst f)) (p_values l)
  | LFUnit => []
  end.
Definition types_of {F} (d : ldef F) : list lty :=
  match d with LAlias _ _ _ _ _ t _ | LConst _ _ _ _ t _ _ _ _ => [t] | _ => flat_map types_in (fields_of d) end.
(** The names a module body declares or imports. *)
Definition names_of_body {F} (ds : list (ldef F)) : list lname :=
  flat_map (fun d => match d with
    | LModule _ _ n _ _ _ | LStruct _ _ _ n _ _ | LEnum _ _ _ n _ _ _ _ | LAlias _ _ n _ _ _ _ | LConst _ _ n _ _ _ _ _ _ => [n]
    | LImport _ _ (Some (_, n)) _ => [n]
    | LImport _ (s :: segs) None _ => [last (s :: segs) s]
    | LImport _ [] None _ => []
    end) ds.
(** Where an id is: where it is written, or the whole item that got it. *)
Definition id_at (id : option lid) (whole : loc) : loc := match id with Some i => snd i | None => whole end.

Section Report.
Context {F : Type} (s : lschema F).
(** The error and its locations fit the schema. *)
Inductive report : verr -> place -> Prop :=
| R_variant_id d ids i v w :
    In d (schema_defs s) -> assigns (map (fun v => er_id (lv_id v)) (variants_of d)) ids ->
    first_repeat fst (combine ids (variants_of d)) (i, v) (i, w) ->
    report (DuplicateVariantId i (ln_text (lv_name w)) (ln_text (lv_name v))) (Two (id_at (lv_id v) (lv_loc v)) (id_at (lv_id w) (lv_loc w)))
| R_named_id d o c l ids i f g :
    In d (schema_defs s) -> In (LFNamed o c l) (fields_of d) -> assigns (map (fun f => er_id (lnf_id (fst f))) (p_values l)) ids ->
    first_repeat fst (combine ids (map fst (p_values l))) (i, f) (i, g) ->
    report (DuplicateNamedFieldId i (ln_text (lnf_name g)) (ln_text (lnf_name f))) (Two (id_at (lnf_id f) (lnf_loc f)) (id_at (lnf_id g) (lnf_loc g)))
| R_unnamed_id d o c l ids i j k f g :
    In d (schema_defs s) -> In (LFUnnamed o c l) (fields_of d) -> assigns (map (fun f => er_id (luf_id (fst f))) (p_values l)) ids ->
    first_repeat fst (combine ids (combine (seq 1 (p_len l)) (map fst (p_values l)))) (i, (j, f)) (i, (k, g)) ->
    report (DuplicateUnnamedFieldId i k j) (Two (id_at (luf_id f) (luf_loc f)) (id_at (luf_id g) (luf_loc g)))
| R_variant_name d m n :
    In d (schema_defs s) -> first_repeat ln_text (map lv_name (variants_of d)) m n ->
    report (DuplicateVariantName (ln_text m)) (Two (ln_loc m) (ln_loc n))
| R_field_name d o c l m n :
    In d (schema_defs s) -> In (LFNamed o c l) (fields_of d) -> first_repeat ln_text (map (fun f => lnf_name (fst f)) (p_values l)) m n ->
    report (DuplicateFieldName (ln_text m)) (Two (ln_loc m) (ln_loc n))
| R_module_name ds m n :
    In ds (bodies s) -> first_repeat ln_text (names_of_body ds) m n ->
    report (DuplicateNameInModule (ln_text m)) (Two (ln_loc m) (ln_loc n))
| R_generic_name d m n :
    In d (schema_defs s) -> first_repeat ln_text (params_of d) m n ->
    report (DuplicateGenericName (ln_text m)) (Two (ln_loc m) (ln_loc n))
| R_unused d n :
    In d (schema_defs s) -> In n (params_of d) -> ~ used_in outside_non_zero (ln_text n) (map er_fields (fields_of d)) ->
    report (UnusedGeneric (ln_text n)) (One (ln_loc n))
| R_tuple d t ts a :
    In d (schema_defs s) -> In t (types_of d) -> part outside_non_zero (PTuple ts) (er_ty t) ->
    match a with AmEmpty => p_len ts = 0%nat | AmSingle => p_len ts = 1%nat | AmTooLarge => (12 < p_len ts)%nat end ->
    report (TupleSize a) (One (lty_loc t)).
End Report.

(** What stands in the source at the locations of an error. *)
Section Points.
Variable src : str.
Definition variant_at (l : loc) (i : N) (name : str) : Prop :=
  at_loc src l (64 :: dec_str i) \/ exists fs, reads src l parse_variant (PVariant [] name fs None).
Definition named_at (l : loc) (i : N) (name : str) : Prop :=
  at_loc src l (64 :: dec_str i) \/ exists t, reads src l parse_named_field (NField [] name t None).
Definition unnamed_at (l : loc) (i : N) : Prop :=
  at_loc src l (64 :: dec_str i) \/ exists t, reads src l parse_unnamed_field (UField t None).
Definition points (e : verr) (p : place) : Prop :=
  match e, p with
  | DuplicateVariantId i name other, Two first second => variant_at first i other /\ variant_at second i name
  | DuplicateNamedFieldId i name other, Two first second => named_at first i other /\ named_at second i name
  | DuplicateUnnamedFieldId i _ _, Two first second => unnamed_at first i /\ unnamed_at second i
  | DuplicateVariantName n, Two first second | DuplicateFieldName n, Two first second
  | DuplicateNameInModule n, Two first second | DuplicateGenericName n, Two first second =>
      at_loc src first n /\ at_loc src second n /\ snd first <= fst second
  | UnusedGeneric n, One declared => at_loc src declared n
  | TupleSize a, One declared =>
      exists fuel t ts, reads src declared (parse_type fuel) t /\ part outside_non_zero (PTuple ts) t /\ ~ (2 <= p_len ts <= 12)%nat
  | _, _ => False
  end.
End Points.
