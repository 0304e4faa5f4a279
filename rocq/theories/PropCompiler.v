(** Property theorems C28-C34: the schema compiler. *)
From Verif Require Import Base Wire Syntax Compiler CompilerSpec CompilerClaims CompilerProofs CompilerMore GenProofs.
Local Open Scope N_scope.

(** A small schema for the concrete instances:
<<
    use shapes::Point;
    mod inner { enum Kind<T> { A @3, B(u8, T @7), C { x: (u8, string), y: vec<T> @9, z: u16 } } }
    struct Node<K> { key: K, kids: vec<Node<K>> @4, next: option<inner::Kind<K>> }
    type Id = non_zero<u32>;
    const MAX: u32 = 5;
>> *)
Definition one {A} (x : A) : punct A := Punct [] x false.
Definition ref (n : str) : pty := PExternal [] n None.
Definition kind_def : pdef unit :=
  PEnum [] [] [75] (Some (one [84]))
    (Punct [PVariant [] [65] FUnit (Some 3);
            PVariant [] [66] (FUnnamed (Punct [UField (PPrim PrU8) None] (UField (ref [84]) (Some 7)) false)) None]
       (PVariant [] [67]
         (FNamed (Punct [NField [] [120] (PTuple (Punct [PPrim PrU8] (PPrim PrString) false)) None;
                         NField [] [121] (PVec (ref [84])) (Some 9)]
                        (NField [] [122] (PPrim PrU16) None) true)) None) true).
Definition node_def : pdef unit :=
  PStruct [] [] [78] (Some (one [75]))
    (FNamed (Punct [NField [] [107] (ref [75]) None; NField [] [115] (PVec (PExternal [] [78] (Some (one (ref [75]))))) (Some 4)]
       (NField [] [110] (POption (PExternal [[105]] [75] (Some (one (ref [75]))))) None) false)).
Definition sample : pschema unit :=
  PSchema [] [PImport [[115]] (Some [80]); PModule [] [105] [kind_def]; node_def;
              PAlias [] [73] None (PNonZero (PPrim PrU32)); PConst [] [77] (PPrim PrU32) (LInt 5)].
Definition pick0 (l : list str) : nat := 0.


Lemma sample_u32 : u32_defs (ps_defs sample).
Proof.
  intros d decl Hd Hi.
  assert (Hd' : In d [PImport [[115]] (Some [80]); PModule [] [105] [kind_def]; node_def;
              PAlias [] [73] None (PNonZero (PPrim PrU32)); PConst [] [77] (PPrim PrU32) (LInt 5); kind_def]).
  { inversion Hd as [? Hin|c n sub ? Hin Hw]; subst.
    - cbn in Hin |- *. tauto.
    - repeat (destruct Hin as [Hin|Hin]; [try discriminate Hin|]); [|contradiction].
      injection Hin as <- <- <-. inversion Hw as [? Hin|c n sub ? Hin Hw']; subst.
      + destruct Hin as [<-|[]]. cbn. tauto.
      + destruct Hin as [Hin|[]]. discriminate Hin. }
  repeat (destruct Hd' as [<-|Hd']; [cbn in Hi; repeat (destruct Hi as [<-|Hi];
     [intros e He; cbn in He; repeat (destruct He as [He|He]; [try discriminate He; injection He as <-; reflexivity|]); contradiction|]); contradiction|]).
  contradiction.
Qed.

(** * C28: automatic ids *)

(** Every list of declarations has exactly one assignment of ids. *)
Theorem C28_ids_determined : forall decl : list (option N), exists! ids, assigns decl ids.
Proof.
  intros decl. exists (ids_from 1 decl). split; [apply assigns_ids_from|].
  intros ids H. apply (assigns_unique decl); [apply assigns_ids_from|exact H].
Qed.
Print Assumptions C28_ids_determined.

(** The simplified schema, which all back ends work on, has the structure of the source with
    these ids: explicit ones kept, otherwise the previous id plus one, starting at 1. *)
Theorem C28_emitted_ids : forall (F : Type) (chk : bool) (s : pschema F) (c : comment) (out : list (sdef F)),
  u32_defs (ps_defs s) -> simplify_schema chk s = Some (c, out) ->
  c = ps_comment s /\ Forall2 compiled (ps_defs s) out.
Proof. intros F. exact simplify_schema_compiled. Qed.
Print Assumptions C28_emitted_ids.

(** In a validated schema the emitted ids of each field list, and of the variants of each
    enum, are pairwise distinct, and simplification succeeds. *)
Theorem C28_emitted_ids_distinct : forall (F : Type) (pick : list str -> nat) (chk : bool) (s : pschema F),
  u32_defs (ps_defs s) -> validate_schema pick chk s = COk tt ->
  (exists out, simplify_schema chk s = Some (ps_comment s, out) /\ Forall2 compiled (ps_defs s) out)
  /\ forall d decl ids, within d (ps_defs s) -> In decl (id_scopes d) -> assigns decl ids -> NoDup ids.
Proof.
  intros F pick chk s Hu Hv. split.
  - destruct (simplify_schema_total pick chk s Hu Hv) as (c & out & H). exists out.
    destruct (simplify_schema_compiled chk s c out Hu H) as [-> Hc]. auto.
  - intros d decl ids Hd Hin Ha. apply (validate_schema_exact pick chk s Hu) in Hv as [_ Hv].
    destruct (Hv d Hd) as (_ & H & _). apply (H decl ids Hin Ha).
Qed.
Print Assumptions C28_emitted_ids_distinct.

Example C28_ex : u32_defs (ps_defs sample) /\ validate_schema pick0 true sample = COk tt
  /\ assigns [Some 3; None; None; Some 9; None] [3; 4; 5; 9; 10]
  /\ (exists c out, simplify_schema true sample = Some (c, out)
      /\ match out with
         | [_; SModule _ _ [SEnum _ _ _ vs]; SStruct _ _ _ fs; _; _] =>
             map sv_id vs = [3; 4; 5] /\ map (fun v => map sf_id (ss_fields (sv_fields v))) vs = [[]; [1; 7]; [1; 9; 10]]
             /\ map sf_id (ss_fields fs) = [1; 4; 5]
         | _ => False
         end).
Proof.
  split; [exact sample_u32|]. split; [reflexivity|]. split.
  - split; [reflexivity|]. intros k Hk. do 5 (destruct k as [|k]; [reflexivity|]). cbn in Hk. lia.
  - eexists. eexists. split; [reflexivity|]. repeat split.
Qed.

(** * C29: duplicate ids *)

(** Completeness: two fields of a list, or two variants, with one id are never accepted. *)
Theorem C29_duplicate_ids_rejected : forall (F : Type) (pick : list str -> nat) (chk : bool) (s : pschema F)
    (d : pdef F) (decl : list (option N)) (ids : list N) (i : N),
  u32_defs (ps_defs s) -> within d (ps_defs s) -> In decl (id_scopes d) -> assigns decl ids -> twice i ids ->
  validate_schema pick chk s <> COk tt.
Proof.
  intros F pick chk s d decl ids i Hu Hd Hin Ha Ht Hv. apply (validate_schema_exact pick chk s Hu) in Hv as [_ Hv].
  destruct (Hv d Hd) as (_ & H & _). exact (twice_not_NoDup i ids Ht (proj1 (H decl ids Hin Ha))).
Qed.
Print Assumptions C29_duplicate_ids_rejected.

(** Soundness: every reported error is true of a definition of the schema: for a duplicate
    id there are two fields (variants) that have it, named as in the error. *)
Theorem C29_errors_are_true : forall (F : Type) (pick : list str -> nat) (chk : bool) (s : pschema F) (e : verr),
  u32_defs (ps_defs s) -> validate_schema pick chk s = CErr e ->
  (exists n, e = DuplicateNameInModule n /\ twice n (introduced (ps_defs s)))
  \/ exists d, within d (ps_defs s) /\ blames d e.
Proof. intros F. exact validate_schema_err. Qed.
Print Assumptions C29_errors_are_true.

(** The duplicate-id check of one field list, alone: it reports the first repeated id. *)
Theorem C29_field_list_exact : forall (fs : pfields) (ids : list N),
  u32_ids (field_decls fs) -> assigns (field_decls fs) ids ->
  (validate_field_ids false fs = COk tt <-> NoDup ids)
  /\ (forall e, validate_field_ids false fs = CErr e ->
        exists j k i, (j < k)%nat /\ nth_error ids j = Some i /\ nth_error ids k = Some i /\ NoDup (firstn k ids)
          /\ match fs with
             | FNamed l => exists fj fk, nth_error (p_values l) j = Some fj /\ nth_error (p_values l) k = Some fk
                             /\ e = DuplicateNamedFieldId i (nf_name fk) (nf_name fj)
             | FUnnamed _ => e = DuplicateUnnamedFieldId i (k + 1) (j + 1)
             | FUnit => False
             end).
Proof.
  intros fs ids Hu Ha. split.
  - rewrite (validate_field_ids_ok false fs ids Hu Ha). split; [tauto|]. intros H. split; [exact H|discriminate].
  - intros e. apply validate_field_ids_err; assumption.
Qed.
Print Assumptions C29_field_list_exact.

(** enum K { A @2, B @1, C } and struct S(u8 @2, u8 @1, u8) *)
Definition dup_enum : pschema unit :=
  PSchema [] [PEnum [] [] [75] None (Punct [PVariant [] [65] FUnit (Some 2); PVariant [] [66] FUnit (Some 1)]
                                           (PVariant [] [67] FUnit None) false)].
Definition dup_struct : pschema unit :=
  PSchema [] [PStruct [] [] [83] None (FUnnamed (Punct [UField (PPrim PrU8) (Some 2); UField (PPrim PrU8) (Some 1)]
                                                  (UField (PPrim PrU8) None) false))].
Example C29_ex : validate_schema pick0 true dup_enum = CErr (DuplicateVariantId 2 [67] [65])
  /\ validate_schema pick0 false dup_struct = CErr (DuplicateUnnamedFieldId 2 3 1)
  /\ assigns [Some 2; Some 1; None] [2; 1; 2] /\ twice 2 [2; 1; 2].
Proof.
  split; [reflexivity|]. split; [reflexivity|]. split.
  - split; [reflexivity|]. intros k Hk. do 3 (destruct k as [|k]; [reflexivity|]). cbn in Hk. lia.
  - exists 0%nat, 2%nat. repeat split. lia.
Qed.

(** * C30: duplicate names *)
Theorem C30_duplicate_names_rejected : forall (F : Type) (pick : list str -> nat) (chk : bool) (s : pschema F) (n : str),
  u32_defs (ps_defs s) ->
  twice n (introduced (ps_defs s)) \/ (exists d names, within d (ps_defs s) /\ In names (name_scopes d) /\ twice n names) ->
  validate_schema pick chk s <> COk tt.
Proof.
  intros F pick chk s n Hu Ht Hv. apply (validate_schema_exact pick chk s Hu) in Hv as [H1 Hv].
  destruct Ht as [Ht|(d & names & Hd & Hin & Ht)].
  - exact (twice_not_NoDup n _ Ht H1).
  - destruct (Hv d Hd) as (H & _). exact (twice_not_NoDup n names Ht (H names Hin)).
Qed.
Print Assumptions C30_duplicate_names_rejected.

(** A schema with distinct names is never refused because of a name. *)
Theorem C30_distinct_names_accepted : forall (F : Type) (pick : list str -> nat) (chk : bool) (s : pschema F) (e : verr),
  u32_defs (ps_defs s) ->
  NoDup (introduced (ps_defs s)) ->
  (forall d names, within d (ps_defs s) -> In names (name_scopes d) -> NoDup names) ->
  validate_schema pick chk s = CErr e ->
  match e with DuplicateNameInModule _ | DuplicateVariantName _ | DuplicateFieldName _ => False | _ => True end.
Proof.
  intros F pick chk s e Hu Hn Hd He.
  destruct (validate_schema_err pick chk s e Hu He) as [(n & -> & Ht)|(d & Hw & Hb)].
  { exact (twice_not_NoDup n _ Ht Hn). }
  destruct e; try exact I; cbn [blames] in Hb.
  - destruct d; try contradiction. eapply (twice_not_NoDup name); [exact Hb|]. apply (Hd _ _ Hw). left. reflexivity.
  - destruct Hb as (fs & Hin & Ht). apply (twice_not_NoDup name _ Ht). apply (Hd _ _ Hw).
    apply in_or_app. right. apply in_map. exact Hin.
  - destruct d; try contradiction. eapply (twice_not_NoDup name); [exact Hb|]. apply (Hd _ _ Hw). left. reflexivity.
Qed.
Print Assumptions C30_distinct_names_accepted.

(** use a::P; struct P *)
Example C30_ex : validate_schema pick0 true (PSchema (F := unit) [] [PImport [[97]] (Some [80]); PStruct [] [] [80] None FUnit])
    = CErr (DuplicateNameInModule [80])
  /\ NoDup (introduced (ps_defs sample)).
Proof. split; [reflexivity|]. apply validate_schema_exact with (pick := pick0) (chk := true); [exact sample_u32|reflexivity]. Qed.

(** * C31: generic parameters *)

(** Exact, with "used" meaning: used outside of [non_zero<..>]. *)
Theorem C31_generics_exact_partial : forall (pick : list str -> nat) (g : generics) (fss : list pfields),
  (validate_generics pick (Some g) fss = COk tt <->
   NoDup (p_values g) /\ forall n, In n (p_values g) -> used_in outside_non_zero n fss)
  /\ (forall e, validate_generics pick (Some g) fss = CErr e ->
       (exists n, e = DuplicateGenericName n /\ twice n (p_values g))
       \/ exists n, e = UnusedGeneric n /\ In n (p_values g) /\ ~ used_in outside_non_zero n fss).
Proof.
  intros pick g fss. split; [apply validate_generics_ok|]. intros e He.
  destruct (validate_generics_err pick (Some g) fss e He) as (g0 & Hg & H). injection Hg as <-. exact H.
Qed.
Print Assumptions C31_generics_exact_partial.

(** A schema that passes uses every parameter of every definition, and declares none twice. *)
Theorem C31_accepted_are_used : forall (F : Type) (pick : list str -> nat) (chk : bool) (s : pschema F) (d : pdef F) (n : str),
  u32_defs (ps_defs s) -> validate_schema pick chk s = COk tt -> within d (ps_defs s) ->
  NoDup (parameters d) /\ (In n (parameters d) -> used_in anywhere n (field_lists d)).
Proof.
  intros F pick chk s d n Hu Hv Hd. apply (validate_schema_exact pick chk s Hu) in Hv as [_ Hv].
  destruct (Hv d Hd) as (_ & _ & [H1 H2] & _). split; [exact H1|]. intros Hn.
  destruct (H2 n Hn) as (fs & t & Hfs & Ht & Hp). exists fs, t. split; [exact Hfs|]. split; [exact Ht|].
  clear -Hp. unfold uses in *. induction Hp as [|c t Hgo Hc Hp IH]; [constructor|].
  apply part_child with c; [reflexivity|exact Hc|exact IH].
Qed.
Print Assumptions C31_accepted_are_used.

(** The claim itself is false: struct A<T>(non_zero<vec<T>>) uses T and is refused. *)
Definition nz_generic : pschema unit :=
  PSchema [] [PStruct [] [] [65] (Some (one [84])) (FUnnamed (one (UField (PNonZero (PVec (ref [84]))) None)))].
Theorem C31_used_in_non_zero_refuted : exists (d : pdef unit) (n : str),
  ps_defs nz_generic = [d] /\ parameters d = [n] /\ used_in anywhere n (field_lists d)
  /\ forall pick chk, validate_schema pick chk nz_generic = CErr (UnusedGeneric n).
Proof.
  eexists. exists [84]. split; [reflexivity|]. split; [reflexivity|]. split.
  - exists (FUnnamed (one (UField (PNonZero (PVec (ref [84]))) None))), (PNonZero (PVec (ref [84]))).
    split; [left; reflexivity|]. split; [left; reflexivity|].
    apply part_child with (PVec (ref [84])); [reflexivity|left; reflexivity|].
    apply part_child with (ref [84]); [reflexivity|left; reflexivity|constructor].
  - intros pick []; cbn -[Nat.modulo]; rewrite Nat.mod_1_r; reflexivity.
Qed.
Print Assumptions C31_used_in_non_zero_refuted.

(** struct A<T, T>(T) and struct A<T, U>(vec<U>) *)
Example C31_ex :
  validate_schema pick0 true (PSchema (F := unit) [] [PStruct [] [] [65] (Some (Punct [[84]] [84] false)) (FUnnamed (one (UField (ref [84]) None)))])
    = CErr (DuplicateGenericName [84])
  /\ validate_schema pick0 true (PSchema (F := unit) [] [PStruct [] [] [65] (Some (Punct [[84]] [85] false)) (FUnnamed (one (UField (PVec (ref [85])) None)))])
    = CErr (UnusedGeneric [84]).
Proof. split; reflexivity. Qed.

(** * C32: tuple sizes *)
Theorem C32_tuples_exact_partial : forall (t : pty),
  (validate_tuple_size t = COk tt <-> tuples_ok outside_non_zero t)
  /\ (forall e, validate_tuple_size t = CErr e -> exists a ts, e = TupleSize a /\ part outside_non_zero (PTuple ts) t
        /\ match a with AmEmpty => p_len ts = 0 | AmSingle => p_len ts = 1 | AmTooLarge => 12 < p_len ts end%nat).
Proof. intros t. split; [apply validate_tuple_size_ok|intros e; apply validate_tuple_size_err]. Qed.
Print Assumptions C32_tuples_exact_partial.

(** In a validated schema every tuple outside [non_zero] has 2 to 12 elements. *)
Theorem C32_accepted_tuples_partial : forall (F : Type) (pick : list str -> nat) (chk : bool) (s : pschema F) (d : pdef F) (t : pty) (ts : punct pty),
  u32_defs (ps_defs s) -> validate_schema pick chk s = COk tt ->
  within d (ps_defs s) -> In t (mentioned d) -> part outside_non_zero (PTuple ts) t ->
  (2 <= p_len ts <= 12)%nat.
Proof.
  intros F pick chk s d t ts Hu Hv Hd Ht Hp. apply (validate_schema_exact pick chk s Hu) in Hv as [_ Hv].
  destruct (Hv d Hd) as (_ & _ & _ & H). exact (H t Ht ts Hp).
Qed.
Print Assumptions C32_accepted_tuples_partial.

(** Below [non_zero] any tuple is accepted: struct A(non_zero<vec<(u8)>>). *)
Definition nz_tuple : pschema unit :=
  PSchema [] [PStruct [] [] [65] None (FUnnamed (one (UField (PNonZero (PVec (PTuple (one (PPrim PrU8))))) None)))].
Theorem C32_tuple_in_non_zero_refuted : exists (d : pdef unit) (t : pty) (ts : punct pty),
  ps_defs nz_tuple = [d] /\ In t (mentioned d) /\ part anywhere (PTuple ts) t /\ p_len ts = 1%nat
  /\ forall pick chk, validate_schema pick chk nz_tuple = COk tt.
Proof.
  eexists. exists (PNonZero (PVec (PTuple (one (PPrim PrU8))))), (one (PPrim PrU8)).
  split; [reflexivity|]. split; [left; reflexivity|]. split.
  - eapply part_child; [reflexivity|left; reflexivity|]. eapply part_child; [reflexivity|left; reflexivity|constructor].
  - split; [reflexivity|]. intros pick []; reflexivity.
Qed.
Print Assumptions C32_tuple_in_non_zero_refuted.

Example C32_ex : validate_schema pick0 true (PSchema (F := unit) [] [PAlias [] [65] None (PVec (PTuple (one (PPrim PrU8))))]) = CErr (TupleSize AmSingle)
  /\ validate_schema pick0 true (PSchema (F := unit) [] [PAlias [] [65] None (PTuple (Punct (repeat (PPrim PrU8) 12) (PPrim PrU8) true))]) = CErr (TupleSize AmTooLarge).
Proof. split; reflexivity. Qed.

(** * C33: the code generator does not panic on validated schemas *)

(** Exactly which validated schemas compile: every [non_zero] has contents the back end knows,
    tuples outside type arguments are of a supported size (this only matters below
    [non_zero]), and constants have primitive types. *)
Theorem C33_generator_exact_partial : forall (F : Type) (pick : list str -> nat) (chk : bool) (s : pschema F),
  u32_defs (ps_defs s) -> validate_schema pick chk s = COk tt ->
  exists out, simplify_schema chk s = Some (ps_comment s, out)
    /\ (forallb generates out = true <-> forall d, within d (ps_defs s) -> generator_ok d).
Proof.
  intros F pick chk s Hu Hv. destruct (simplify_schema_total pick chk s Hu Hv) as (c & out & H).
  destruct (simplify_schema_compiled chk s c out Hu H) as [-> _]. exists out. split; [exact H|].
  exact (generates_schema chk s _ out H).
Qed.
Print Assumptions C33_generator_exact_partial.

Example C33_ex : validate_schema pick0 true sample = COk tt
  /\ match simplify_schema true sample with Some (_, out) => forallb generates out = true | None => False end.
Proof. split; reflexivity. Qed.

(** Three validated schemas that make it panic: non_zero<bool>, a constant of type vec<u8>,
    and a single-element tuple inside [non_zero]. *)
Theorem C33_generator_refuted : forall s : pschema unit,
  In s [PSchema [] [PStruct [] [] [65] None (FUnnamed (one (UField (PNonZero (PPrim PrBool)) None)))];
        PSchema [] [PConst [] [65] (PVec (PPrim PrU8)) (LInt 1)];
        nz_tuple] ->
  (forall pick chk, validate_schema pick chk s = COk tt)
  /\ forall chk, match simplify_schema chk s with Some (_, out) => forallb generates out = false | None => False end.
Proof.
  intros s Hs. repeat (destruct Hs as [<-|Hs]; [split; [intros pick []; reflexivity|intros []; reflexivity]|]). destruct Hs.
Qed.
Print Assumptions C33_generator_refuted.

(** Compilation itself can panic: with overflow checks, when an id 2^32-1 is assigned,
    as in struct A(u8 @4294967295); and only then. *)
Theorem C33_id_overflow : forall (F : Type) (pick : list str -> nat) (chk : bool) (s : pschema F),
  u32_defs (ps_defs s) -> validate_schema pick chk s = CPanic ->
  chk = true /\ exists d decl ids, within d (ps_defs s) /\ In decl (id_scopes d) /\ assigns decl ids /\ In (2 ^ 32 - 1) ids.
Proof. intros F. exact validate_schema_panic. Qed.
Print Assumptions C33_id_overflow.
Example C33_id_overflow_ex :
  validate_schema pick0 true (PSchema (F := unit) [] [PStruct [] [] [65] None (FUnnamed (one (UField (PPrim PrU8) (Some 4294967295))))]) = CPanic.
Proof. reflexivity. Qed.

(** * C34: the id 0 *)
Lemma nth_some_in {A} (l : list A) k d x : nth k l d = x -> (k < length l)%nat -> In x l.
Proof. intros <- H. apply nth_In. exact H. Qed.

(** Exactly: 0 is assigned iff it was written, or the item follows one with id 2^32 - 1. *)
Theorem C34_zero_exact_partial : forall (decl : list (option N)) (ids : list N),
  u32_ids decl -> assigns decl ids ->
  (In 0 ids <-> In (Some 0) decl
     \/ exists k, nth_error decl (S k) = Some None /\ nth_error ids k = Some (2 ^ 32 - 1)).
Proof.
  intros decl ids Hu [Hlen Ha].
  assert (Hlt : forall k, (k < length decl)%nat -> nth k ids 0 < 2 ^ 32).
  { intros k Hk. rewrite (Ha k Hk). destruct (nth k decl None) as [e|] eqn:E.
    - apply Hu. rewrite <- E. apply nth_In. exact Hk.
    - destruct k; [reflexivity|apply N.mod_lt; discriminate]. }
  split.
  - intros Hin. apply (In_nth _ _ 0) in Hin as (k & Hk & H0). rewrite Hlen in Hk. rewrite (Ha k Hk) in H0.
    destruct (nth k decl None) as [e|] eqn:E.
    + left. subst e. apply (nth_some_in decl k None); [exact E|exact Hk].
    + destruct k as [|k]; [discriminate|]. right. exists k.
      assert (Hk' : (k < length decl)%nat) by lia. pose proof (Hlt k Hk') as Hb.
      split.
      * rewrite (nth_error_nth' decl None) by exact Hk. rewrite E. reflexivity.
      * rewrite (nth_error_nth' ids 0) by lia. f_equal.
        destruct (N.eq_dec (nth k ids 0) (2 ^ 32 - 1)) as [He|He]; [exact He|].
        rewrite N.mod_small in H0 by lia. lia.
  - intros [Hin|(k & Hd & Hi)].
    + apply (In_nth _ _ None) in Hin as (k & Hk & He). apply (nth_some_in ids k 0); [|lia]. rewrite (Ha k Hk), He. reflexivity.
    + assert (Hk : (S k < length decl)%nat) by (apply nth_error_Some; congruence).
      apply (nth_some_in ids (S k) 0); [|lia]. rewrite (Ha (S k) Hk).
      rewrite (nth_error_nth _ _ None Hd), (nth_error_nth _ _ 0 Hi). reflexivity.
Qed.
Print Assumptions C34_zero_exact_partial.

(** With overflow checks a validated schema emits 0 only where it was written. *)
Theorem C34_zero_only_explicit_partial : forall (F : Type) (pick : list str -> nat) (s : pschema F)
    (d : pdef F) (decl : list (option N)) (ids : list N),
  u32_defs (ps_defs s) -> validate_schema pick true s = COk tt ->
  within d (ps_defs s) -> In decl (id_scopes d) -> assigns decl ids ->
  In 0 ids -> In (Some 0) decl.
Proof.
  intros F pick s d decl ids Hu Hv Hd Hin Ha H0.
  apply (C34_zero_exact_partial decl ids (Hu d decl Hd Hin) Ha) in H0 as [H0|(k & _ & Hk)]; [exact H0|].
  apply (validate_schema_exact pick true s Hu) in Hv as [_ Hv]. destruct (Hv d Hd) as (_ & H & _).
  destruct (proj2 (H decl ids Hin Ha) eq_refl). eapply nth_error_In. exact Hk.
Qed.
Print Assumptions C34_zero_only_explicit_partial.

(** The validator does accept it: struct A(u8 @0). *)
Definition zero_id : pschema unit := PSchema [] [PStruct [] [] [65] None (FUnnamed (one (UField (PPrim PrU8) (Some 0))))].
Theorem C34_zero_refuted : forall pick chk,
  validate_schema pick chk zero_id = COk tt
  /\ exists fs, simplify_schema chk zero_id = Some ([], [SStruct [] [65] [] fs]) /\ map sf_id (ss_fields fs) = [0].
Proof. intros pick []; (split; [reflexivity|]); eexists; split; reflexivity. Qed.
Print Assumptions C34_zero_refuted.

(** Without overflow checks also by wrapping: struct A(u8 @4294967295, u8). *)
Definition wrap_id : pschema unit :=
  PSchema [] [PStruct [] [] [65] None (FUnnamed (Punct [UField (PPrim PrU8) (Some 4294967295)] (UField (PPrim PrU8) None) false))].
Theorem C34_zero_wrap_refuted : forall pick,
  validate_schema pick false wrap_id = COk tt
  /\ exists fs, simplify_schema false wrap_id = Some ([], [SStruct [] [65] [] fs]) /\ map sf_id (ss_fields fs) = [4294967295; 0].
Proof. intros pick. split; [reflexivity|]. eexists. split; reflexivity. Qed.
Print Assumptions C34_zero_wrap_refuted.

(** * C11, continued: the validator accepts ids that collide on the wire. *)
(** struct A(u8 @1, u8 @536870913) *)
Definition colliding : pschema unit :=
  PSchema [] [PStruct [] [] [65] None (FUnnamed (Punct [UField (PPrim PrU8) (Some 1)] (UField (PPrim PrU8) (Some 536870913)) false))].
Theorem C11_validated_collision_refuted : forall pick chk,
  validate_schema pick chk colliding = COk tt
  /\ exists fs, simplify_schema chk colliding = Some ([], [SStruct [] [65] [] fs])
     /\ map sf_id (ss_fields fs) = [1; 536870913]
     /\ fid_into_u32 (FieldId 1 EFixed1) = fid_into_u32 (FieldId 536870913 EFixed1).
Proof. intros pick []; (split; [reflexivity|]); eexists; repeat split. Qed.
Print Assumptions C11_validated_collision_refuted.
