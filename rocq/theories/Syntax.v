(** The syntax tree of schema files: crates/mabo-parser/src/lib.rs and punctuated.rs.

    Simplification (whole file): source spans and token positions are dropped, as well as
    [Schema::path] and [Schema::source].  Texts are lists of Unicode scalar values. *)
From Verif Require Import Base.
Local Open Scope N_scope.

(** A Rust [&str]/[String] as its sequence of [char]s. *)
Definition str := list N.

(** punctuated.rs L21-24 [Punctuated]: all but the last element are followed by a comma,
    the last one may be. *)
Record punct (A : Type) := Punct { p_init : list A; p_last : A; p_trail : bool }.
Arguments Punct {A} p_init p_last p_trail.
Arguments p_init {A} p.
Arguments p_last {A} p.
Arguments p_trail {A} p.

(** punctuated.rs L36-41 [values], L139-149 [ValuesIter::next]. *)
Definition p_values {A} (p : punct A) : list A := p_init p ++ [p_last p].
(** punctuated.rs L49-51 [len]; L151-155 [ValuesIter::len]. *)
Definition p_len {A} (p : punct A) : nat := length (p_init p) + 1.
(** punctuated.rs L57-62 [iter], L113-122 [Iter::next]: elements with their punctuation. *)
Definition p_iter {A} (p : punct A) : list (A * bool) :=
  map (fun a => (a, true)) (p_init p) ++ [(p_last p, p_trail p)].

(** lib.rs L876-911, L954-957 [DataType]: the types without parameters. *)
Inductive prim :=
| PrBool | PrU8 | PrU16 | PrU32 | PrU64 | PrU128
| PrI8 | PrI16 | PrI32 | PrI64 | PrI128 | PrF32 | PrF64
| PrString | PrStringRef | PrBytes | PrBytesRef | PrBoxString | PrBoxBytes.

(** lib.rs L876-976 [DataType] and L1027-1036 [ExternalType]. *)
Inductive pty :=
| PPrim (p : prim)
| PVec (t : pty)
| PHashMap (k v : pty)
| PHashSet (t : pty)
| POption (t : pty)
| PNonZero (t : pty)
| PTuple (ts : punct pty)
| PArray (t : pty) (size : N)
| PExternal (path : list str) (name : str) (generics : option (punct pty)).

(** Induction over types, with the hypothesis for every element of a list. *)
Section PtyInd.
Variable P : pty -> Prop.
Hypothesis HPrim : forall p, P (PPrim p).
Hypothesis HVec : forall t, P t -> P (PVec t).
Hypothesis HMap : forall k v, P k -> P v -> P (PHashMap k v).
Hypothesis HSet : forall t, P t -> P (PHashSet t).
Hypothesis HOption : forall t, P t -> P (POption t).
Hypothesis HNonZero : forall t, P t -> P (PNonZero t).
Hypothesis HTuple : forall ts, (forall t, In t (p_values ts) -> P t) -> P (PTuple ts).
Hypothesis HArray : forall t n, P t -> P (PArray t n).
Hypothesis HExt0 : forall path name, P (PExternal path name None).
Hypothesis HExt : forall path name ts, (forall t, In t (p_values ts) -> P t) -> P (PExternal path name (Some ts)).

Fixpoint pty_ind2 (t : pty) : P t :=
  let all := fix all (l : list pty) : forall t, In t l -> P t :=
    match l return forall t, In t l -> P t with
    | [] => fun t H => match H with end
    | x :: l' => fun t H => match H with
                            | or_introl e => match e in _ = y return P y with eq_refl => pty_ind2 x end
                            | or_intror H' => all l' t H'
                            end
    end in
  let pall := fun ts : punct pty =>
    match ts return forall t, In t (p_values ts) -> P t with
    | Punct l x b => fun t H =>
        match in_app_or l [x] t H with
        | or_introl H' => all l t H'
        | or_intror (or_introl e) => match e in _ = y return P y with eq_refl => pty_ind2 x end
        | or_intror (or_intror H') => match H' with end
        end
    end in
  match t with
  | PPrim p => HPrim p
  | PVec t => HVec t (pty_ind2 t)
  | PHashMap k v => HMap k v (pty_ind2 k) (pty_ind2 v)
  | PHashSet t => HSet t (pty_ind2 t)
  | POption t => HOption t (pty_ind2 t)
  | PNonZero t => HNonZero t (pty_ind2 t)
  | PTuple (Punct l x b) => HTuple (Punct l x b)
      (fun t H =>
        match in_app_or l [x] t H with
        | or_introl H' => all l t H'
        | or_intror (or_introl e) => match e in _ = y return P y with eq_refl => pty_ind2 x end
        | or_intror (or_intror H') => match H' with end
        end)
  | PArray t n => HArray t n (pty_ind2 t)
  | PExternal path name None => HExt0 path name
  | PExternal path name (Some (Punct l x b)) => HExt path name (Punct l x b)
      (fun t H =>
        match in_app_or l [x] t H with
        | or_introl H' => all l t H'
        | or_intror (or_introl e) => match e in _ = y return P y with eq_refl => pty_ind2 x end
        | or_intror (or_intror H') => match H' with end
        end)
  end.
End PtyInd.

(** lib.rs L1251-1262 [LiteralValue].  [F] is the type of [f64] values. *)
Inductive lit (F : Type) :=
| LBool (b : bool)
| LInt (z : Z)
| LFloat (f : F)
| LString (s : str)
| LBytes (l : list N).
Arguments LBool {F} b.
Arguments LInt {F} z.
Arguments LFloat {F} f.
Arguments LString {F} s.
Arguments LBytes {F} l.

(** lib.rs L788-793 [Attribute], L812-819 [AttributeValue]. *)
Inductive attr (F : Type) :=
| Attr (name : str) (value : attr_value F)
with attr_value (F : Type) :=
| AUnit
| ASingle (l : lit F)
| AMulti (l : list (attr F)).
Arguments Attr {F} name value.
Arguments AUnit {F}.
Arguments ASingle {F} l.
Arguments AMulti {F} l.

(** lib.rs L696 [Comment]: its lines. *)
Definition comment := list str.

(** lib.rs L594-607 [NamedField], L654-661 [UnnamedField], L540-563 [Fields]. *)
Record nfield := NField { nf_comment : comment; nf_name : str; nf_ty : pty; nf_id : option N }.
Record ufield := UField { uf_ty : pty; uf_id : option N }.
Inductive pfields :=
| FNamed (l : punct nfield)
| FUnnamed (l : punct ufield)
| FUnit.

(** The types of a field list in order. *)
Definition field_types (fs : pfields) : list pty :=
  match fs with
  | FNamed l => map nf_ty (p_values l)
  | FUnnamed l => map uf_ty (p_values l)
  | FUnit => []
  end.

(** lib.rs L435-446 [Variant]. *)
Record pvariant := PVariant { pv_comment : comment; pv_name : str; pv_fields : pfields; pv_id : option N }.

(** lib.rs L1064-1069 [Generics]. *)
Definition generics := punct str.

(** lib.rs L192-205 [Definition], with [Module] L260-271, [Struct] L321-334, [Enum]
    L383-398, [TypeAlias] L492-507, [Const] L1173-1190, [Import] L1278-1290 (the redundant
    [full] path text is dropped). *)
Inductive pdef (F : Type) :=
| PModule (c : comment) (name : str) (defs : list (pdef F))
| PStruct (c : comment) (a : list (attr F)) (name : str) (g : option generics) (fs : pfields)
| PEnum (c : comment) (a : list (attr F)) (name : str) (g : option generics) (vs : punct pvariant)
| PAlias (c : comment) (name : str) (g : option generics) (target : pty)
| PConst (c : comment) (name : str) (t : pty) (v : lit F)
| PImport (segments : list str) (element : option str).
Arguments PModule {F} c name defs.
Arguments PStruct {F} c a name g fs.
Arguments PEnum {F} c a name g vs.
Arguments PAlias {F} c name g target.
Arguments PConst {F} c name t v.
Arguments PImport {F} segments element.

(** lib.rs L135-147 [Schema]. *)
Record pschema (F : Type) := PSchema { ps_comment : comment; ps_defs : list (pdef F) }.
Arguments PSchema {F} ps_comment ps_defs.
Arguments ps_comment {F} p.
Arguments ps_defs {F} p.

(** Induction over definitions. *)
Section PdefInd.
Context {F : Type}.
Variable P : pdef F -> Prop.
Hypothesis HModule : forall c n ds, (forall d, In d ds -> P d) -> P (PModule c n ds).
Hypothesis HStruct : forall c a n g fs, P (PStruct c a n g fs).
Hypothesis HEnum : forall c a n g vs, P (PEnum c a n g vs).
Hypothesis HAlias : forall c n g t, P (PAlias c n g t).
Hypothesis HConst : forall c n t v, P (PConst c n t v).
Hypothesis HImport : forall s e, P (PImport s e).
Fixpoint pdef_ind2 (d : pdef F) : P d :=
  let all := fix all (l : list (pdef F)) : forall d, In d l -> P d :=
    match l return forall d, In d l -> P d with
    | [] => fun d H => match H with end
    | x :: l' => fun d H => match H with
                            | or_introl e => match e in _ = y return P y with eq_refl => pdef_ind2 x end
                            | or_intror H' => all l' d H'
                            end
    end in
  match d with
  | PModule c n ds => HModule c n ds (all ds)
  | PStruct c a n g fs => HStruct c a n g fs
  | PEnum c a n g vs => HEnum c a n g vs
  | PAlias c n g t => HAlias c n g t
  | PConst c n t v => HConst c n t v
  | PImport s e => HImport s e
  end.
End PdefInd.

(** Equality of names. *)
Fixpoint str_eqb (a b : str) : bool :=
  match a, b with
  | [], [] => true
  | x :: a', y :: b' => (x =? y) && str_eqb a' b'
  | _, _ => false
  end.

Lemma str_eqb_eq a b : str_eqb a b = true <-> a = b.
Proof.
  revert b. induction a as [|x a IH]; intros [|y b]; cbn [str_eqb]; try (split; (discriminate || reflexivity)).
  rewrite andb_true_iff, N.eqb_eq, IH. split; [intros [-> ->]; reflexivity|intros H; injection H; auto].
Qed.
Lemma str_eqb_refl a : str_eqb a a = true.
Proof. apply str_eqb_eq. reflexivity. Qed.

(** Rust's [Display] for unsigned integers: decimal digits without leading zeros. *)
Fixpoint dec_aux (fuel : nat) (n : N) (acc : str) : str :=
  match fuel with
  | O => acc
  | S f => let acc' := (48 + n mod 10) :: acc in
           if n <? 10 then acc' else dec_aux f (n / 10) acc'
  end.
Definition dec_str (n : N) : str := dec_aux (S (N.to_nat (N.log2 n))) n [].
