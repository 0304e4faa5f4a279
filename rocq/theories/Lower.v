(** From the simplified schemas of a project (Compiler.v) to the definitions the generated
    code is made of (Codec.v).

    Models what rustc does with the names in the code generated by
    crates/mabo-build/src/definition.rs: every schema becomes a module, every [mod] a nested
    module, and a type path is looked up from the module it is written in; a [use] brings a
    type or module into the scope of the module it is written in, and of no other.
    [None] stands for code that does not compile.

    Simplifications: the names of crates ([std], [mabo], ..) are not in scope; a [use] whose
    path itself leads through an import of the parent module is not followed. *)
From Verif Require Import Base Varint Wire Codec Syntax Compiler.
Local Open Scope N_scope.

(** definition.rs L259-351 [compile_data_type]: the types without parameters. *)
Definition lower_prim (p : prim) : ty :=
  match p with
  | PrBool => TBool
  | PrU8 => TU8 | PrU16 => TUInt W16 | PrU32 => TUInt W32 | PrU64 => TUInt W64 | PrU128 => TUInt W128
  | PrI8 => TI8 | PrI16 => TSInt W16 | PrI32 => TSInt W32 | PrI64 => TSInt W64 | PrI128 => TSInt W128
  | PrF32 => TF32 | PrF64 => TF64
  | PrString => TString | PrStringRef => TStringRef | PrBytes => TBytes | PrBytesRef => TBytesRef
  | PrBoxString => TBoxString | PrBoxBytes => TBoxBytes
  end.

(** Position of a name in a list. *)
Fixpoint position (n : str) (l : list str) : option nat :=
  match l with
  | [] => None
  | x :: l' => if str_eqb x n then Some O else option_map S (position n l')
  end.

(** definition.rs L259-351.  [look] finds the definition a path means; a plain name that is
    one of the definition's own parameters means that parameter, which takes no arguments. *)
Section Lower.
Variable look : list str -> str -> option nat.
Variable params : list str.
Definition lower_ref (path : list str) (name : str) (args : list ty) : option ty :=
  match path, position name params with
  | [], Some i => match args with [] => Some (TParam i) | _ => None end
  | _, _ => option_map (fun i => TExt i args) (look path name)
  end.
Fixpoint lower_type (t : sty) : option ty :=
  match t with
  | SPrim p => Some (lower_prim p)
  | SVec t => option_map TVec (lower_type t)
  | SHashMap k v =>
      match lower_type k, lower_type v with Some k', Some v' => Some (TMap k' v') | _, _ => None end
  | SHashSet t => option_map TSet (lower_type t)
  | SOption t => option_map TOption (lower_type t)
  | SNonZero t => option_map TNonZero (lower_type t)
  | STuple ts => option_map TTuple (all_opt lower_type ts)
  | SArray t n => option_map (fun t' => TArray t' (N.to_nat n)) (lower_type t)
  | SExternal path name args =>
      match all_opt lower_type args with Some args' => lower_ref path name args' | None => None end
  end.

Definition lower_kind (k : skind) : fkind :=
  match k with SKNamed => KNamed | SKUnnamed => KUnnamed | SKUnit => KUnit end.
Definition lower_field (f : sfield) : option field :=
  option_map (Field (sf_name f) (sf_id f)) (lower_type (sf_ty f)).
Definition lower_fields (fs : sfields) : option fields :=
  option_map (Fields (lower_kind (ss_kind fs))) (all_opt lower_field (ss_fields fs)).
Definition lower_variant (v : svariant) : option variant :=
  option_map (Variant (sv_id v)) (lower_fields (sv_fields v)).
End Lower.

(** A struct or enum with its absolute path (schema name first) and type parameters. *)
Inductive body := BStruct (fs : sfields) | BEnum (vs : list svariant).
Record entry := Entry { e_path : list str; e_name : str; e_params : list str; e_body : body }.

Section Project.
Context {F : Type}.

(** All definitions below a module, in order. *)
Fixpoint entries (path : list str) (d : sdef F) : list entry :=
  match d with
  | SModule _ n ds => flat_map (entries (path ++ [n])) ds
  | SStruct _ n g fs => [Entry path n g (BStruct fs)]
  | SEnum _ n g vs => [Entry path n g (BEnum vs)]
  | SAlias _ _ _ _ | SConst _ _ _ _ | SImport _ _ => []
  end.
Definition schema_entries (s : str * list (sdef F)) : list entry := flat_map (entries [fst s]) (snd s).
Definition project_entries (ss : list (str * list (sdef F))) : list entry := flat_map schema_entries ss.

Fixpoint path_eqb (a b : list str) : bool :=
  match a, b with
  | [], [] => true
  | x :: a', y :: b' => str_eqb x y && path_eqb a' b'
  | _, _ => false
  end.
(** Index of a definition. *)
Fixpoint find_entry (path : list str) (name : str) (l : list entry) : option nat :=
  match l with
  | [] => None
  | e :: l' => if path_eqb (e_path e) path && str_eqb (e_name e) name then Some O
               else option_map S (find_entry path name l')
  end.
(** definition.rs L187-213 [compile_import]: the imports with the module they are written
    in: [use super::segments::element]. *)
Fixpoint uses_of (path : list str) (d : sdef F) : list (list str * list str * option str) :=
  match d with
  | SModule _ n ds => flat_map (uses_of (path ++ [n])) ds
  | SImport segs e => [(path, segs, e)]
  | _ => []
  end.
(** The names in the type namespace of each module. *)
Fixpoint names_of (path : list str) (d : sdef F) : list (list str * str) :=
  match d with
  | SModule _ n ds => (path, n) :: flat_map (names_of (path ++ [n])) ds
  | SStruct _ n _ _ | SEnum _ n _ _ | SAlias _ n _ _ => [(path, n)]
  | SConst _ _ _ _ => []
  | SImport _ (Some n) => [(path, n)]
  | SImport segs None => [(path, last segs [])]
  end.
(** The module a [use] in the module [at_] names: [super] is the parent. *)
Definition use_target (at_ segs : list str) : list str := removelast at_ ++ segs.
(** [use super::segs::name] in module [at_]. *)
Definition find_use (at_ : list str) (name : str) (us : list (list str * list str * option str)) : option (list str) :=
  match find (fun '(p, _, e) => path_eqb p at_ && match e with Some n => str_eqb n name | None => false end) us with
  | Some (_, segs, _) => Some (use_target at_ segs)
  | None => None
  end.
(** [use super::segs] in module [at_], where the last segment is [name]. *)
Definition find_use_module (at_ : list str) (name : str) (us : list (list str * list str * option str)) : option (list str) :=
  match find (fun '(p, segs, e) => path_eqb p at_ && match e with Some _ => false | None => str_eqb (last segs []) name end) us with
  | Some (_, segs, _) => Some (use_target at_ segs)
  | None => None
  end.
(** What [path::name] means in the module [at_]. *)
Definition lookup (all : list entry) (us : list (list str * list str * option str)) (at_ path : list str) (name : str) : option nat :=
  match find_entry (at_ ++ path) name all with
  | Some i => Some i
  | None =>
      match path with
      | [] => match find_use at_ name us with Some m => find_entry m name all | None => None end
      | first :: rest => match find_use_module at_ first us with Some m => find_entry (m ++ rest) name all | None => None end
      end
  end.

(** definition.rs L259-351: the names of the standard library that are written without a
    path. *)
Definition std_vec : str := [86; 101; 99].
Definition std_option : str := [79; 112; 116; 105; 111; 110].
Definition std_string : str := [83; 116; 114; 105; 110; 103].
Definition std_box : str := [66; 111; 120].
Fixpoint std_names (t : sty) : list str :=
  match t with
  | SPrim (PrString | PrStringRef) => [std_string]
  | SPrim (PrBytes | PrBytesRef) => [std_vec]
  | SPrim (PrBoxString | PrBoxBytes) => [std_box]
  | SPrim _ => []
  | SVec t => std_vec :: std_names t
  | SOption t => std_option :: std_names t
  | SHashMap k v => std_names k ++ std_names v
  | SHashSet t | SArray t _ => std_names t
  | SNonZero t => match t with
                  | SVec t | SHashSet t => std_names t
                  | SHashMap k v => std_names k ++ std_names v
                  | _ => []
                  end
  | STuple ts | SExternal _ _ ts => flat_map std_names ts
  end.
(** The module or the definition gives the name another meaning. *)
Definition captured (names : list (list str * str)) (e : entry) (n : str) : bool :=
  existsb (fun '(p, x) => path_eqb p (e_path e) && str_eqb x n) names || existsb (str_eqb n) (e_params e).
Definition body_types (b : body) : list sty :=
  match b with
  | BStruct fs => map sf_ty (ss_fields fs)
  | BEnum vs => flat_map (fun v => map sf_ty (ss_fields (sv_fields v))) vs
  end.

Definition lower_entry (all : list entry) (us : list (list str * list str * option str))
    (names : list (list str * str)) (e : entry) : option def :=
  if existsb (captured names e) (flat_map std_names (body_types (e_body e))) then None else
  let look := lookup all us (e_path e) in
  match e_body e with
  | BStruct fs => option_map DStruct (lower_fields look (e_params e) fs)
  | BEnum vs => option_map DEnum (all_opt (lower_variant look (e_params e)) vs)
  end.
(** The definitions of a project, and the number of type parameters of each. *)
Definition project_uses (ss : list (str * list (sdef F))) := flat_map (fun s => flat_map (uses_of [fst s]) (snd s)) ss.
Definition project_names (ss : list (str * list (sdef F))) := flat_map (fun s => flat_map (names_of [fst s]) (snd s)) ss.
Definition lower_project (ss : list (str * list (sdef F))) : option env :=
  all_opt (lower_entry (project_entries ss) (project_uses ss) (project_names ss)) (project_entries ss).
Definition arities (ss : list (str * list (sdef F))) : list nat :=
  map (fun e => length (e_params e)) (project_entries ss).
End Project.
