(** Model of crates/mabo-compiler: id assignment, validation and simplification.

    Error values keep everything but source spans. *)
From Verif Require Import Base Syntax.
Local Open Scope N_scope.

(** Outcome of a compiler pass: success, a reported error, or a panic. *)
Inductive cres (E A : Type) :=
| COk (a : A)
| CErr (e : E)
| CPanic.
Arguments COk {E A} a.
Arguments CErr {E A} e.
Arguments CPanic {E A}.

(** Rust's [?]. *)
Definition cbind {E A B} (m : cres E A) (f : A -> cres E B) : cres E B :=
  match m with COk a => f a | CErr e => CErr e | CPanic => CPanic end.

(** [Iterator::try_for_each]. *)
Section Each.
Context {E A : Type} (f : A -> cres E unit).
Fixpoint each (l : list A) : cres E unit :=
  match l with
  | [] => COk tt
  | a :: l' => cbind (f a) (fun _ => each l')
  end.
End Each.

(** [map(f).collect()] when [f] may panic. *)
Section AllOpt.
Context {A B : Type} (f : A -> option B).
Fixpoint all_opt (l : list A) : option (list B) :=
  match l with
  | [] => Some []
  | a :: l' => match f a, all_opt l' with Some b, Some bs => Some (b :: bs) | _, _ => None end
  end.
End AllOpt.

(** * Id generation: lib.rs L34-54 [IdGenerator].
    [chk] tells whether the compiler was built with overflow checks ([id + 1] on
    [u32::MAX] panics with them and wraps to 0 without). *)
Definition u32_max : N := 2 ^ 32 - 1.
(** lib.rs L50-54 [next]: the id and the generator's next state. *)
Definition gen_next (chk : bool) (st : N) (id : option N) : option (N * N) :=
  let i := match id with Some i => i | None => st end in
  if i =? u32_max then (if chk then None else Some (i, 0)) else Some (i, i + 1).

(** * Validation errors: validate/{ids,names,generics,tuples}.rs *)
Inductive amount := AmEmpty | AmSingle | AmTooLarge.
Inductive verr :=
| DuplicateVariantId (id : N) (name other : str)
| DuplicateNamedFieldId (id : N) (name other : str)
| DuplicateUnnamedFieldId (id : N) (position other : nat)
| DuplicateVariantName (name : str)
| DuplicateFieldName (name : str)
| DuplicateNameInModule (name : str)
| DuplicateGenericName (name : str)
| UnusedGeneric (name : str)
| TupleSize (a : amount).

(** [HashMap::insert] on the visited map: the previous value of the key. *)
Fixpoint visited {L} (id : N) (seen : list (N * L)) : option L :=
  match seen with
  | [] => None
  | (i, l) :: seen' => if i =? id then Some l else visited id seen'
  end.

(** * Ids: validate/ids.rs *)

(** ids.rs L141-156 and L163-177: the loops over named and unnamed fields; [err] builds the
    error from the id, the label of the current and the label of the earlier field. *)
Fixpoint field_ids {L} (err : N -> L -> L -> verr) (chk : bool) (st : N) (seen : list (N * L))
    (l : list (option N * L)) : cres verr unit :=
  match l with
  | [] => COk tt
  | (oid, lab) :: l' =>
      match gen_next chk st oid with
      | None => CPanic
      | Some (i, st') =>
          match visited i seen with
          | Some other => CErr (err i lab other)
          | None => field_ids err chk st' ((i, lab) :: seen) l'
          end
      end
  end.

(** ids.rs L135-181 [validate_field_ids]. *)
Definition validate_field_ids (chk : bool) (fs : pfields) : cres verr unit :=
  match fs with
  | FNamed l =>
      field_ids DuplicateNamedFieldId chk 1 [] (map (fun f => (nf_id f, nf_name f)) (p_values l))
  | FUnnamed l =>
      field_ids (fun i pos other => DuplicateUnnamedFieldId i (pos + 1) (other + 1)) chk 1 []
        (combine (map uf_id (p_values l)) (seq 0 (p_len l)))
  | FUnit => COk tt
  end.

(** ids.rs L100-131 [validate_enum_ids]: the loop over the variants. *)
Fixpoint variant_ids (chk : bool) (st : N) (seen : list (N * str)) (l : list pvariant) : cres verr unit :=
  match l with
  | [] => COk tt
  | v :: l' =>
      match gen_next chk st (pv_id v) with
      | None => CPanic
      | Some (i, st') =>
          match visited i seen with
          | Some other => CErr (DuplicateVariantId i (pv_name v) other)
          | None => cbind (validate_field_ids chk (pv_fields v))
                      (fun _ => variant_ids chk st' ((i, pv_name v) :: seen) l')
          end
      end
  end.
Definition validate_enum_ids (chk : bool) (vs : punct pvariant) : cres verr unit :=
  variant_ids chk 1 [] (p_values vs).

(** * Names: validate/names.rs *)

Definition seen_name (n : str) (seen : list str) : bool := existsb (str_eqb n) seen.

(** The [find_map] over a list of names: the first one that was seen before. *)
Fixpoint repeated (seen : list str) (l : list str) : option str :=
  match l with
  | [] => None
  | n :: l' => if seen_name n seen then Some n else repeated (n :: seen) l'
  end.

(** names.rs L102-124 [validate_field_names]. *)
Definition validate_field_names (fs : pfields) : cres verr unit :=
  match fs with
  | FNamed l => match repeated [] (map nf_name (p_values l)) with
                | Some n => CErr (DuplicateFieldName n)
                | None => COk tt
                end
  | _ => COk tt
  end.

(** names.rs L76-99 [validate_enum_names]. *)
Fixpoint variant_names (seen : list str) (l : list pvariant) : cres verr unit :=
  match l with
  | [] => COk tt
  | v :: l' =>
      if seen_name (pv_name v) seen then CErr (DuplicateVariantName (pv_name v))
      else cbind (validate_field_names (pv_fields v)) (fun _ => variant_names (pv_name v :: seen) l')
  end.
Definition validate_enum_names (vs : punct pvariant) : cres verr unit := variant_names [] (p_values vs).

Section Defs.
Context {F : Type}.

(** names.rs L131-143: the name a definition introduces into its module.  ([?] on an import
    without segments, which the parser never produces, ends the whole search.) *)
Definition def_name (d : pdef F) : option str :=
  match d with
  | PModule _ n _ | PStruct _ _ n _ _ | PEnum _ _ n _ _ | PAlias _ n _ _ | PConst _ n _ _ => Some n
  | PImport _ (Some n) => Some n
  | PImport segs None => match rev segs with n :: _ => Some n | [] => None end
  end.

(** names.rs L126-155 [validate_names_in_module]; in a [find_map] closure [?] on [None]
    continues with the next element. *)
Fixpoint module_names (seen : list str) (l : list (pdef F)) : option str :=
  match l with
  | [] => None
  | d :: l' =>
      match def_name d with
      | None => module_names seen l'
      | Some n => if seen_name n seen then Some n else module_names (n :: seen) l'
      end
  end.
Definition validate_names_in_module (l : list (pdef F)) : cres verr unit :=
  match module_names [] l with
  | Some n => CErr (DuplicateNameInModule n)
  | None => COk tt
  end.

(** * Generics: validate/generics.rs *)

(** generics.rs L143-190 [visit_externals]: the external types in visiting order.  The
    contents of [non_zero] are not visited (L164). *)
Fixpoint externals (t : pty) : list (list str * str * option (punct pty)) :=
  match t with
  | PPrim _ | PNonZero _ => []
  | PVec t | PHashSet t | POption t | PArray t _ => externals t
  | PHashMap k v => externals k ++ externals v
  | PTuple (Punct l x _) => flat_map externals l ++ externals x
  | PExternal path name g =>
      (path, name, g) ::
      match g with
      | Some (Punct l x _) => flat_map externals l ++ externals x
      | None => []
      end
  end.

(** generics.rs L116-139 [validate_field_generics]: remove what occurs. *)
Definition remove_visited (unvisited : list str) (e : list str * str * option (punct pty)) : list str :=
  match e with
  | ([], name, None) => filter (fun n => negb (str_eqb n name)) unvisited
  | _ => unvisited
  end.
Definition validate_field_generics (fs : pfields) (unvisited : list str) : list str :=
  fold_left remove_visited (flat_map externals (field_types fs)) unvisited.

(** generics.rs L48-70 and L73-97: [validate_struct_generics], [validate_enum_generics].
    [pick] stands for the hash map's iteration order, which decides which of the unused
    parameters is reported. *)
Definition validate_generics (pick : list str -> nat) (g : option generics) (fss : list pfields) : cres verr unit :=
  match g with
  | None => COk tt
  | Some g =>
      match repeated [] (p_values g) with
      | Some n => CErr (DuplicateGenericName n)
      | None =>
          let left := fold_left (fun u fs => validate_field_generics fs u) fss (p_values g) in
          match nth_error left (Nat.modulo (pick left) (length left)) with
          | Some n => CErr (UnusedGeneric n)
          | None => COk tt
          end
      end
  end.

(** * Tuples: validate/tuples.rs *)

(** tuples.rs L74-81: the closure. *)
Definition tuple_amount (n : nat) : option amount :=
  match n with
  | 0%nat => Some AmEmpty
  | 1%nat => Some AmSingle
  | _ => if (n <=? 12)%nat then None else Some AmTooLarge
  end.

Definition or_else {A} (a b : option A) : option A := match a with Some x => Some x | None => b end.
Definition first_some {A B} (f : A -> option B) (l : list A) : option B :=
  fold_right (fun a o => or_else (f a) o) None l.

(** tuples.rs L88-135 [visit_tuples] with that closure.  The contents of [non_zero] are not
    visited (L109). *)
Fixpoint bad_tuple (t : pty) : option amount :=
  match t with
  | PPrim _ | PNonZero _ => None
  | PVec t | PHashSet t | POption t | PArray t _ => bad_tuple t
  | PHashMap k v => or_else (bad_tuple k) (bad_tuple v)
  | PTuple (Punct l x _) =>
      or_else (tuple_amount (length l + 1)) (or_else (first_some bad_tuple l) (bad_tuple x))
  | PExternal _ _ None => None
  | PExternal _ _ (Some (Punct l x _)) => or_else (first_some bad_tuple l) (bad_tuple x)
  end.
Definition validate_tuple_size (t : pty) : cres verr unit :=
  match bad_tuple t with Some a => CErr (TupleSize a) | None => COk tt end.
(** tuples.rs L52-62 [validate_field_tuples]. *)
Definition validate_field_tuples (fs : pfields) : cres verr unit := each validate_tuple_size (field_types fs).

(** * Whole schemas: validate/mod.rs L70-103 *)
Fixpoint validate_definition (pick : list str -> nat) (chk : bool) (d : pdef F) : cres verr unit :=
  match d with
  | PModule _ _ ds =>
      cbind (validate_names_in_module ds) (fun _ => each (validate_definition pick chk) ds)
  | PStruct _ _ _ g fs =>
      cbind (validate_field_ids chk fs) (fun _ =>
      cbind (validate_field_names fs) (fun _ =>
      cbind (validate_generics pick g [fs]) (fun _ => validate_field_tuples fs)))
  | PEnum _ _ _ g vs =>
      cbind (validate_enum_ids chk vs) (fun _ =>
      cbind (validate_enum_names vs) (fun _ =>
      cbind (validate_generics pick g (map pv_fields (p_values vs))) (fun _ =>
      each (fun v => validate_field_tuples (pv_fields v)) (p_values vs))))
  | PAlias _ _ _ t => validate_tuple_size t
  | PConst _ _ t _ => validate_tuple_size t
  | PImport _ _ => COk tt
  end.
Definition validate_schema (pick : list str -> nat) (chk : bool) (s : pschema F) : cres verr unit :=
  cbind (validate_names_in_module (ps_defs s)) (fun _ => each (validate_definition pick chk) (ps_defs s)).

(** * Simplification: simplify.rs *)

(** simplify.rs L229-298 [Type], [ExternalType]. *)
Inductive sty :=
| SPrim (p : prim)
| SVec (t : sty)
| SHashMap (k v : sty)
| SHashSet (t : sty)
| SOption (t : sty)
| SNonZero (t : sty)
| STuple (ts : list sty)
| SArray (t : sty) (n : N)
| SExternal (path : list str) (name : str) (generics : list sty).

(** simplify.rs L125-172 [Fields], [Field], [FieldKind], L108-122 [Variant]. *)
Inductive skind := SKNamed | SKUnnamed | SKUnit.
Record sfield := SField { sf_comment : comment; sf_name : str; sf_ty : sty; sf_id : N }.
Record sfields := SFields { ss_kind : skind; ss_fields : list sfield }.
Record svariant := SVariant { sv_comment : comment; sv_name : str; sv_fields : sfields; sv_id : N }.
(** simplify.rs L38-107, L174-227: the definitions. *)
Inductive sdef :=
| SModule (c : comment) (name : str) (defs : list sdef)
| SStruct (c : comment) (name : str) (g : list str) (fs : sfields)
| SEnum (c : comment) (name : str) (g : list str) (vs : list svariant)
| SAlias (c : comment) (name : str) (g : list str) (target : sty)
| SConst (c : comment) (name : str) (t : sty) (v : lit F)
| SImport (segments : list str) (element : option str).

(** simplify.rs L425-471 [simplify_type]. *)
Fixpoint simplify_type (t : pty) : sty :=
  match t with
  | PPrim p => SPrim p
  | PVec t => SVec (simplify_type t)
  | PHashMap k v => SHashMap (simplify_type k) (simplify_type v)
  | PHashSet t => SHashSet (simplify_type t)
  | POption t => SOption (simplify_type t)
  | PNonZero t => SNonZero (simplify_type t)
  | PTuple (Punct l x _) => STuple (map simplify_type l ++ [simplify_type x])
  | PArray t n => SArray (simplify_type t) n
  | PExternal path name None => SExternal path name []
  | PExternal path name (Some (Punct l x _)) =>
      SExternal path name (map simplify_type l ++ [simplify_type x])
  end.

(** The ids drawn from one generator by a [map] over the items. *)
Fixpoint draw (chk : bool) (st : N) (l : list (option N)) : option (list N) :=
  match l with
  | [] => Some []
  | d :: l' =>
      match gen_next chk st d with
      | None => None
      | Some (i, st') => option_map (cons i) (draw chk st' l')
      end
  end.

(** simplify.rs L381-423 [simplify_fields]; [None] is a panic of the id generator. *)
Definition simplify_fields (chk : bool) (fs : pfields) : option sfields :=
  match fs with
  | FNamed l =>
      option_map (fun ids => SFields SKNamed
        (map (fun '(f, i) => SField (nf_comment f) (nf_name f) (simplify_type (nf_ty f)) i)
             (combine (p_values l) ids)))
        (draw chk 1 (map nf_id (p_values l)))
  | FUnnamed l =>
      option_map (fun ids => SFields SKUnnamed
        (map (fun '(k, (f, i)) => SField [] (110 :: dec_str (N.of_nat k)) (simplify_type (uf_ty f)) i)
             (combine (seq 0 (p_len l)) (combine (p_values l) ids))))
        (draw chk 1 (map uf_id (p_values l)))
  | FUnit => Some (SFields SKUnit [])
  end.

(** simplify.rs L367-379 [simplify_variant], L349-365 [simplify_enum]. *)
Fixpoint simplify_variants (chk : bool) (st : N) (l : list pvariant) : option (list svariant) :=
  match l with
  | [] => Some []
  | v :: l' =>
      match simplify_fields chk (pv_fields v) with
      | None => None
      | Some fs =>
          match gen_next chk st (pv_id v) with
          | None => None
          | Some (i, st') =>
              option_map (cons (SVariant (pv_comment v) (pv_name v) fs i)) (simplify_variants chk st' l')
          end
      end
  end.

(** simplify.rs L315-319 [generics]. *)
Definition simplify_generics (g : option generics) : list str :=
  match g with Some g => p_values g | None => [] end.

(** simplify.rs L321-347, L473-508 [definition] and the functions it calls. *)
Fixpoint simplify_definition (chk : bool) (d : pdef F) : option sdef :=
  match d with
  | PModule c n ds =>
      option_map (SModule c n)
        (all_opt (simplify_definition chk) ds)
  | PStruct c _ n g fs => option_map (SStruct c n (simplify_generics g)) (simplify_fields chk fs)
  | PEnum c _ n g vs => option_map (SEnum c n (simplify_generics g)) (simplify_variants chk 1 (p_values vs))
  | PAlias c n g t => Some (SAlias c n (simplify_generics g) (simplify_type t))
  | PConst c n t v => Some (SConst c n (simplify_type t) v)
  | PImport segs el => Some (SImport segs el)
  end.
(** simplify.rs L303-309 [schema]. *)
Definition simplify_schema (chk : bool) (s : pschema F) : option (comment * list sdef) :=
  option_map (pair (ps_comment s)) (all_opt (simplify_definition chk) (ps_defs s)).

(** * Panics of the Rust code generator: crates/mabo-build *)

(** The contents of [non_zero] that the generator has code for: definition.rs L293-326,
    encode.rs L267-319, size.rs L223-243, decode.rs L236-275. *)
Definition nz_supported (t : sty) : bool :=
  match t with
  | SPrim (PrU8 | PrU16 | PrU32 | PrU64 | PrU128 | PrI8 | PrI16 | PrI32 | PrI64 | PrI128
          | PrString | PrStringRef | PrBytes | PrBytesRef) => true
  | SVec _ | SHashMap _ _ | SHashSet _ => true
  | _ => false
  end.

(** definition.rs L259-351 [compile_data_type] does not reach its [todo!]. *)
Fixpoint def_type_ok (t : sty) : bool :=
  match t with
  | SPrim _ => true
  | SVec t | SHashSet t | SOption t | SArray t _ => def_type_ok t
  | SHashMap k v => def_type_ok k && def_type_ok v
  | SNonZero t => nz_supported t && def_type_ok t
  | STuple ts => forallb def_type_ok ts
  | SExternal _ _ ts => forallb def_type_ok ts
  end.

(** encode.rs L156-355, size.rs L185-262 and decode.rs L202-309 do not reach theirs (the
    three functions recurse in the same way; for the arguments of an external type only
    decode.rs L298-304 has code, which is definition.rs'). *)
Fixpoint code_type_ok (t : sty) : bool :=
  match t with
  | SPrim _ => true
  | SVec t | SHashSet t | SOption t | SArray t _ => code_type_ok t
  | SHashMap k v => code_type_ok k && code_type_ok v
  | SNonZero t => nz_supported t && code_type_ok t
  | STuple ts => ((2 <=? length ts) && (length ts <=? 12))%nat && forallb code_type_ok ts
  | SExternal _ _ ts => forallb def_type_ok ts
  end.

(** definition.rs L355-376 [compile_const_data_type] does not panic. *)
Definition const_type_ok (t : sty) : bool :=
  match t with
  | SPrim (PrBoxString | PrBoxBytes) => false
  | SPrim _ => true
  | _ => false
  end.

Definition fields_code_ok (fs : sfields) : bool :=
  forallb (fun f => def_type_ok (sf_ty f) && code_type_ok (sf_ty f)) (ss_fields fs).
(** definition.rs L13-57 [compile_schema], [compile_definition]: code generation returns. *)
Fixpoint generates (d : sdef) : bool :=
  match d with
  | SModule _ _ ds => forallb generates ds
  | SStruct _ _ _ fs => fields_code_ok fs
  | SEnum _ _ _ vs => forallb (fun v => fields_code_ok (sv_fields v)) vs
  | SAlias _ _ _ t => def_type_ok t
  | SConst _ _ t _ => const_type_ok t
  | SImport _ _ => true
  end.
End Defs.
Arguments sdef F : clear implicits.
