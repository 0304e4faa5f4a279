(** What C84 says: the names a Go file uses are declared, and its imports are used (the rules of
    the Go specification on scopes, "Declarations and scope" and "Import declarations", for the
    part of the language that mabo-go emits). *)
From Verif Require Import Base Syntax Parser Compiler GoNames GoFile.
Require Coq.Strings.String.
Import Coq.Strings.String.StringSyntax.
Local Open Scope N_scope.

(** Names that exist without a declaration. *)
Definition predeclared_types : list str :=
  [tx "bool"; tx "byte"; tx "error"; tx "float32"; tx "float64"; tx "int"; tx "int8"; tx "int16"; tx "int32"; tx "int64";
   tx "string"; tx "uint8"; tx "uint16"; tx "uint32"; tx "uint64"].
Definition predeclared_values : list str := [tx "nil"; tx "true"; tx "false"; tx "len"].

(** The types (with their number of type parameters), functions and constants a declaration adds to
    the package. *)
Definition item_types {F} (it : gitem F) : list (str * nat) :=
  match it with
  | IStruct _ n g _ => [(n, length g)]
  | IDefined _ n _ | IInterface n _ => [(n, 0%nat)]
  | _ => []
  end.
Definition item_values {F} (it : gitem F) : list str :=
  match it with IFunc n _ _ _ _ | IConst _ _ n _ _ => [n] | _ => [] end.

Section Scope.
(** names of the imported packages; types and values of the package; type parameters in scope *)
Variables (imports : list str) (types : list (str * nat)) (values tps : list str).

(** [n], applied to [k] types, is a type here: a type parameter, a type of the package, or a
    predeclared one. *)
Definition resolves (n : str) (k : nat) : Prop :=
  In n tps /\ k = 0%nat \/
  ~ In n tps /\ (In (n, k) types \/ ~ In n (map fst types) /\ In n predeclared_types /\ k = 0%nat).
(** [vs]: local variables, which hide types and packages of the same name. *)
Fixpoint ty_ok (vs : list str) (t : gty) : Prop :=
  let all := fix all (l : list gty) : Prop := match l with [] => True | t :: l' => ty_ok vs t /\ all l' end in
  match t with
  | GNamed n l => ~ In n vs /\ resolves n (length l) /\ all l
  | GFrom p _ l => ~ In p vs /\ In p imports /\ all l
  | GSlice t | GPtr t | GArr _ t => ty_ok vs t
  | GMap k v => ty_ok vs k /\ ty_ok vs v
  | GEmpty => True
  end.
(** The variables a statement declares for the rest of its block. *)
Definition binds (s : gx) : list str := match s with YDef xs _ => xs | YVar x _ => [x] | _ => [] end.
Definition package_ok (vs : list str) (p : str) : Prop := ~ In p vs /\ In p imports.
Fixpoint x_ok (vs : list str) (e : gx) {struct e} : Prop :=
  let all := fix all (l : list gx) : Prop := match l with [] => True | e :: l' => x_ok vs e /\ all l' end in
  let block := fix block (vs : list str) (l : list gx) : Prop :=
    match l with [] => True | s :: l' => x_ok vs s /\ block (binds s ++ vs) l' end in
  match e with
  | XId x => In x vs \/ In x values \/ In x predeclared_values
  | XNum _ | YBreak | YBlank => True
  | XFrom p _ l => package_ok vs p /\ Forall (ty_ok vs) l
  | XSel e _ | XAddr e | XNot e | XGt0 e => x_ok vs e
  | XNe a b | YSet a b | YAdd a b => x_ok vs a /\ x_ok vs b
  | XCall f l | XCallNl f l => x_ok vs f /\ all l
  | XCallLines f a l => x_ok vs f /\ all a /\ all l
  | XFun _ ps rs b => Forall (ty_ok vs) (map snd ps) /\ Forall (ty_ok vs) rs /\ block (map fst ps ++ vs) b
  | XLit t fs =>
      ty_ok vs t /\
      (fix fields (l : list (str * gx)) : Prop := match l with [] => True | (_, e) :: l' => x_ok vs e /\ fields l' end) fs
  | XMissing _ _ => package_ok vs (tx "buf")
  | YDef _ e => x_ok vs e
  | YVar _ t => ty_ok vs t
  | YRet l => all l
  | YIf c b | YFor c b => x_ok vs c /\ block vs b
  | YSwitch e cs =>
      x_ok vs e /\
      (fix cases (l : list (gx * list gx)) : Prop :=
         match l with [] => True | (c, b) :: l' => x_ok vs c /\ block vs b /\ cases l' end) cs
  end.
Fixpoint block_ok (vs : list str) (l : list gx) : Prop :=
  match l with [] => True | s :: l' => x_ok vs s /\ block_ok (binds s ++ vs) l' end.
End Scope.

Section Closed.
Context {F : Type}.
Variables (imports : list str) (types : list (str * nat)) (values : list str).
Definition item_ok (it : gitem F) : Prop :=
  match it with
  | IStruct _ _ g fs => Forall (fun f => ty_ok imports types g [] (snd (snd f))) fs
  | IDefined _ _ t | IConst _ _ _ t _ => ty_ok imports types [] [] t
  | IInterface _ _ => True
  | ICheck _ t => In (tx "buf") imports /\ ty_ok imports types [] [] t
  | IMethod _ t g _ ps rs b =>
      In (t, length g) types /\
      Forall (ty_ok imports types g []) (map snd ps) /\ Forall (ty_ok imports types g []) rs /\
      block_ok imports types values g (tx "v" :: map fst ps) b
  | IFunc _ g ps r b =>
      Forall (ty_ok imports types g []) (map snd ps) /\ ty_ok imports types g [] r /\
      block_ok imports types values g (map fst ps) b
  end.
End Closed.

(** The packages that are mentioned. *)
Fixpoint ty_packages (t : gty) : list str :=
  match t with
  | GNamed _ l => flat_map ty_packages l
  | GFrom p _ l => p :: flat_map ty_packages l
  | GSlice t | GPtr t | GArr _ t => ty_packages t
  | GMap k v => ty_packages k ++ ty_packages v
  | GEmpty => []
  end.
Fixpoint x_packages (e : gx) : list str :=
  match e with
  | XId _ | XNum _ | YBreak | YBlank => []
  | XFrom p _ l => p :: flat_map ty_packages l
  | XSel e _ | XAddr e | XNot e | XGt0 e | YDef _ e => x_packages e
  | XNe a b | YSet a b | YAdd a b => x_packages a ++ x_packages b
  | XCall f l | XCallNl f l => x_packages f ++ flat_map x_packages l
  | XCallLines f a l => x_packages f ++ flat_map x_packages a ++ flat_map x_packages l
  | XFun _ ps rs b => flat_map (fun p => ty_packages (snd p)) ps ++ flat_map ty_packages rs ++ flat_map x_packages b
  | XLit t fs => ty_packages t ++ flat_map (fun f => x_packages (snd f)) fs
  | XMissing _ _ => [tx "buf"]
  | YVar _ t => ty_packages t
  | YRet l => flat_map x_packages l
  | YIf c b | YFor c b => x_packages c ++ flat_map x_packages b
  | YSwitch e cs => x_packages e ++ flat_map (fun c => x_packages (fst c) ++ flat_map x_packages (snd c)) cs
  end.
Definition item_packages {F} (it : gitem F) : list str :=
  match it with
  | IStruct _ _ _ fs => flat_map (fun f => ty_packages (snd (snd f))) fs
  | IDefined _ _ t | IConst _ _ _ t _ => ty_packages t
  | IInterface _ _ => []
  | ICheck _ t => tx "buf" :: ty_packages t
  | IMethod _ _ _ _ ps rs b => flat_map (fun p => ty_packages (snd p)) ps ++ flat_map ty_packages rs ++ flat_map x_packages b
  | IFunc _ _ ps r b => flat_map (fun p => ty_packages (snd p)) ps ++ ty_packages r ++ flat_map x_packages b
  end.

(** Every name is declared, every import is used. *)
Definition names_declared {F} (f : gfile F) : Prop :=
  Forall (item_ok (map fst (g_imports f)) (flat_map item_types (g_items f)) (flat_map item_values (g_items f))) (g_items f).
Definition imports_used {F} (f : gfile F) : Prop :=
  Forall (fun im => Exists (fun it => In (fst im) (item_packages it)) (g_items f)) (g_imports f).
Definition closed {F} (f : gfile F) : Prop := names_declared f /\ imports_used f.

(** * The same of the schema *)

(** The Go types a definition becomes, and their number of type parameters. *)
Definition schema_types {F} (d : sdef F) : list (str * nat) :=
  match d with
  | SStruct _ n g _ => [(camel n, length g)]
  | SEnum _ n g vs =>
      (camel n ++ tx "Variant", 0%nat) :: (camel n, 0%nat) ::
      map (fun v => (variant_name n v, length (variant_generics g v))) vs
  | SAlias _ n _ _ => [(camel n, 0%nat)]
  | _ => []
  end.
Section Fits.
Variable types : list (str * nat).
(** A type can be written in Go without another import: no 128-bit integer outside [non_zero], every
    reference without path is to a type parameter or to a type of the same module with as many
    parameters, and no reference has a path (unless it happens to end like one of the two imports). *)
Fixpoint type_fits (tps : list str) (t : sty) : Prop :=
  let all := fix all (l : list sty) : Prop := match l with [] => True | t :: l' => type_fits tps t /\ all l' end in
  match t with
  | SPrim p => p <> PrU128 /\ p <> PrI128
  | SVec t | SHashSet t | SOption t | SArray t _ => type_fits tps t
  | SHashMap k v => type_fits tps k /\ type_fits tps v
  | SNonZero t => match t with SPrim _ => True | _ => type_fits tps t end
  | STuple ts => all ts
  | SExternal path n gs =>
      match rev path with
      | [] => resolves types tps (camel n) (length gs)
      | p :: _ => p = tx "mabo" \/ p = tx "buf"
      end /\ all gs
  end.
(** No tuple is read or written by the generated code. *)
Fixpoint tuple_free (t : sty) : Prop :=
  match t with
  | SPrim _ | SExternal _ _ _ => True
  | SVec t | SHashSet t | SOption t | SArray t _ | SNonZero t => tuple_free t
  | SHashMap k v => tuple_free k /\ tuple_free v
  | STuple _ => False
  end.
(** A struct or variant [name] with the type parameters [g]: outside of its declaration and methods
    its type parameters are mentioned too, so they need to be types of the package themselves. *)
Definition fields_fit (name : str) (g : list str) (fs : sfields) : Prop :=
  Forall (fun x => resolves types [] x 0) g /\ ~ In name g /\
  Forall (fun f => type_fits g (sf_ty f) /\ tuple_free (sf_ty f)) (ss_fields fs) /\
  Forall (fun f => lower_camel (sf_name f) <> name /\ ~ In (lower_camel (sf_name f)) g) (ss_fields fs).
Definition def_fits {F} (d : sdef F) : Prop :=
  match d with
  | SModule _ _ _ | SImport _ _ => True
  | SStruct _ n g fs => fields_fit (camel n) g fs
  | SEnum _ n g vs => Forall (fun v => fields_fit (variant_name n v) (variant_generics g v) (sv_fields v)) vs
  | SAlias _ _ _ t => type_fits [] t
  | SConst _ _ t _ => t <> SPrim PrU128 /\ t <> SPrim PrI128
  end.
End Fits.
(** The Go type mentions the package [mabo]: a tuple or [non_zero] in it, or a path ending so. *)
Fixpoint asks (p : str) (t : sty) : Prop :=
  let some := fix some (l : list sty) : Prop := match l with [] => False | t :: l' => asks p t \/ some l' end in
  match t with
  | SPrim q => (q = PrU128 \/ q = PrI128) /\ p = tx "big"
  | SVec t | SHashSet t | SOption t | SArray t _ => asks p t
  | SHashMap k v => asks p k \/ asks p v
  | SNonZero t => p = tx "mabo" \/ match t with SPrim _ => False | _ => asks p t end
  | STuple ts => p = tx "mabo" \/ some ts
  | SExternal path _ gs => match rev path with [] => False | q :: _ => p = q end \/ some gs
  end.
(** The types of the fields and aliases of a module. *)
Definition written_types {F} (d : sdef F) : list sty :=
  match d with
  | SStruct _ _ _ fs => map sf_ty (ss_fields fs)
  | SEnum _ _ _ vs => flat_map (fun v => map sf_ty (ss_fields (sv_fields v))) vs
  | SAlias _ _ _ t => [t]
  | _ => []
  end.
Definition has_codec {F} (d : sdef F) : Prop :=
  match d with SStruct _ _ _ _ => True | SEnum _ _ _ vs => vs <> [] | _ => False end.
Definition module_fits {F} (ds : list (sdef F)) : Prop :=
  Forall (def_fits (flat_map schema_types ds)) ds /\
  Exists (fun d => Exists (asks (tx "mabo")) (written_types d)) ds /\
  Exists (fun d => has_codec d \/ Exists (asks (tx "buf")) (written_types d)) ds.
