(** Specifications that mention the compiler's output: reported errors, simplified
    definitions (C28-C34). *)
From Verif Require Import Base Syntax Compiler CompilerSpec.
Local Open Scope N_scope.

(** [e] is true of the definition [d]. *)
Definition blames {F} (d : pdef F) (e : verr) : Prop :=
  match e with
  | DuplicateNameInModule n =>
      match d with PModule _ _ sub => twice n (introduced sub) | _ => False end
  | DuplicateVariantName n =>
      match d with PEnum _ _ _ _ vs => twice n (map pv_name (p_values vs)) | _ => False end
  | DuplicateFieldName n => exists fs, In fs (field_lists d) /\ twice n (field_names fs)
  | DuplicateVariantId i n other =>
      match d with
      | PEnum _ _ _ _ vs => exists ids j k vj vk, assigns (variant_decls vs) ids /\ (j < k)%nat
          /\ nth_error ids j = Some i /\ nth_error ids k = Some i
          /\ nth_error (p_values vs) j = Some vj /\ nth_error (p_values vs) k = Some vk
          /\ n = pv_name vk /\ other = pv_name vj
      | _ => False
      end
  | DuplicateNamedFieldId i n other =>
      exists l ids j k fj fk, In (FNamed l) (field_lists d) /\ assigns (field_decls (FNamed l)) ids /\ (j < k)%nat
          /\ nth_error ids j = Some i /\ nth_error ids k = Some i
          /\ nth_error (p_values l) j = Some fj /\ nth_error (p_values l) k = Some fk
          /\ n = nf_name fk /\ other = nf_name fj
  | DuplicateUnnamedFieldId i p other =>
      exists l ids j k, In (FUnnamed l) (field_lists d) /\ assigns (field_decls (FUnnamed l)) ids /\ (j < k)%nat
          /\ nth_error ids j = Some i /\ nth_error ids k = Some i /\ p = (k + 1)%nat /\ other = (j + 1)%nat
  | DuplicateGenericName n => twice n (parameters d)
  | UnusedGeneric n => In n (parameters d) /\ ~ used_in outside_non_zero n (field_lists d)
  | TupleSize a =>
      exists t ts, In t (mentioned d) /\ part outside_non_zero (PTuple ts) t
        /\ match a with AmEmpty => p_len ts = 0 | AmSingle => p_len ts = 1 | AmTooLarge => 12 < p_len ts end%nat
  end.

(** [s] is the simplified form of [t]: same structure, separators dropped. *)
Inductive same_type : pty -> sty -> Prop :=
| same_prim p : same_type (PPrim p) (SPrim p)
| same_vec t s : same_type t s -> same_type (PVec t) (SVec s)
| same_map k k' v v' : same_type k k' -> same_type v v' -> same_type (PHashMap k v) (SHashMap k' v')
| same_set t s : same_type t s -> same_type (PHashSet t) (SHashSet s)
| same_option t s : same_type t s -> same_type (POption t) (SOption s)
| same_non_zero t s : same_type t s -> same_type (PNonZero t) (SNonZero s)
| same_tuple ts ss : Forall2 same_type (p_values ts) ss -> same_type (PTuple ts) (STuple ss)
| same_array t s n : same_type t s -> same_type (PArray t n) (SArray s n)
| same_external0 p n : same_type (PExternal p n None) (SExternal p n [])
| same_external p n ts ss : Forall2 same_type (p_values ts) ss -> same_type (PExternal p n (Some ts)) (SExternal p n ss).

(** Field lists: an unnamed field at position k is called "n<k>". *)
Definition compiled_fields (fs : pfields) (ss : sfields) : Prop :=
  assigns (field_decls fs) (map sf_id (ss_fields ss)) /\
  Forall2 same_type (field_types fs) (map sf_ty (ss_fields ss)) /\
  match fs with
  | FNamed l => ss_kind ss = SKNamed /\ map sf_name (ss_fields ss) = map nf_name (p_values l)
                /\ map sf_comment (ss_fields ss) = map nf_comment (p_values l)
  | FUnnamed l => ss_kind ss = SKUnnamed
                /\ map sf_name (ss_fields ss) = map (fun k => 110 :: dec_str (N.of_nat k)) (seq 0 (p_len l))
                /\ map sf_comment (ss_fields ss) = repeat [] (p_len l)
  | FUnit => ss_kind ss = SKUnit /\ ss_fields ss = []
  end.

Inductive compiled {F} : pdef F -> sdef F -> Prop :=
| compiled_module c n ds ds' : Forall2 compiled ds ds' -> compiled (PModule c n ds) (SModule c n ds')
| compiled_struct c a n g fs fs' : compiled_fields fs fs' ->
    compiled (PStruct c a n g fs) (SStruct c n (match g with Some g => p_values g | None => [] end) fs')
| compiled_enum c a n g vs vs' :
    assigns (variant_decls vs) (map sv_id vs') ->
    Forall2 (fun v s => sv_name s = pv_name v /\ sv_comment s = pv_comment v
                        /\ compiled_fields (pv_fields v) (sv_fields s)) (p_values vs) vs' ->
    compiled (PEnum c a n g vs) (SEnum c n (match g with Some g => p_values g | None => [] end) vs')
| compiled_alias c n g t t' : same_type t t' ->
    compiled (PAlias c n g t) (SAlias c n (match g with Some g => p_values g | None => [] end) t')
| compiled_const c n t t' v : same_type t t' -> compiled (PConst c n t v) (SConst c n t' v)
| compiled_import segs e : compiled (PImport segs e) (SImport segs e).

(** The back end has code for everything a definition mentions. *)
Definition generator_ok {F} (d : pdef F) : Prop :=
  match d with
  | PStruct _ _ _ _ _ | PEnum _ _ _ _ _ =>
      forall t, In t (mentioned d) -> non_zero_ok t /\ tuples_ok outside_arguments t
  | PAlias _ _ _ t => non_zero_ok t
  | PConst _ _ t _ => const_content t
  | PModule _ _ _ | PImport _ _ => True
  end.

