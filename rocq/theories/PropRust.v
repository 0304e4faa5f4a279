(** Property theorems C69, C70 and C71: the generated Rust code compiles, does what the schema says,
    and recursive definitions. *)
From Verif Require Import Base Varint Wire Codec CodecSpec CodecProofs SchemaSpec Syntax Compiler Resolve Lower LowerProofs PropCodec PropCompiler PropResolve PropProject
  Safety Fuel RustCode RustEval RustTyping RustSpec RustItems RustEvalProofs RustDecProofs RustRecursion RustRecursionProofs.
From Coq Require Import Wellfounded.Transitive_Closure.
Local Open Scope N_scope.

(** * C69: the code type checks *)

Lemma all_opt_all {A B} (f : A -> option B) (P : B -> Prop) l m : (forall a b, In a l -> f a = Some b -> P b) -> all_opt f l = Some m -> Forall P m.
Proof.
  revert m. induction l as [|a l IH]; intros m H Hm; cbn [all_opt] in Hm; [injection Hm as <-; constructor|].
  destruct (f a) as [b|] eqn:Ea; [|discriminate]. destruct (all_opt f l) as [m'|] eqn:El; [|discriminate]. injection Hm as <-.
  constructor; [exact (H a b (or_introl eq_refl) Ea)|]. apply IH; [intros x y Hx; apply H; right; exact Hx|reflexivity].
Qed.
Lemma lower_no_gen look params t : forall t', lower_type look params t = Some t' -> no_gen t' = true.
Proof.
  induction t as [p|t IH|k v IHk IHv|t IH|t IH|t IH|ts IH|t n IH|path name args IH] using sty_ind2; intros t' H; cbn [lower_type] in H.
  - injection H as <-. destruct p; reflexivity.
  - destruct (lower_type look params t) as [u|]; [|discriminate]. injection H as <-. exact (IH u eq_refl).
  - destruct (lower_type look params k) as [k'|]; [|discriminate]. destruct (lower_type look params v) as [v'|]; [|discriminate].
    injection H as <-. cbn [no_gen]. rewrite (IHk k' eq_refl), (IHv v' eq_refl). reflexivity.
  - destruct (lower_type look params t) as [u|]; [|discriminate]. injection H as <-. exact (IH u eq_refl).
  - destruct (lower_type look params t) as [u|]; [|discriminate]. injection H as <-. exact (IH u eq_refl).
  - destruct (lower_type look params t) as [u|]; [|discriminate]. injection H as <-. exact (IH u eq_refl).
  - destruct (all_opt (lower_type look params) ts) as [us|] eqn:E; [|discriminate]. injection H as <-. cbn [no_gen].
    apply (all_opt_all _ (fun u => no_gen u = true)) in E; [rewrite forallb_forall; rewrite Forall_forall in E; exact E|].
    intros a b Ha. exact (IH a Ha b).
  - destruct (lower_type look params t) as [u|]; [|discriminate]. injection H as <-. exact (IH u eq_refl).
  - destruct (all_opt (lower_type look params) args) as [us|] eqn:E; [|discriminate].
    assert (Hus : forallb no_gen us = true).
    { apply (all_opt_all _ (fun u => no_gen u = true)) in E; [rewrite forallb_forall; rewrite Forall_forall in E; exact E|].
      intros a b Ha. exact (IH a Ha b). }
    unfold lower_ref in H. destruct path as [|x path].
    + destruct (position name params) as [i|].
      * destruct us; [|discriminate]. injection H as <-. reflexivity.
      * destruct (look [] name) as [i|]; [|discriminate]. injection H as <-. exact Hus.
    + destruct (look (x :: path) name) as [i|]; [|discriminate]. injection H as <-. exact Hus.
Qed.
Lemma lower_fields_no_gen look params fs fs' : lower_fields look params fs = Some fs' -> no_gen_fields fs'.
Proof.
  unfold lower_fields. destruct (all_opt (lower_field look params) (ss_fields fs)) as [l|] eqn:E; [|discriminate]. intros H. injection H as <-.
  apply (all_opt_all _ (fun f => no_gen (f_ty f) = true)) in E; [rewrite Forall_forall in E; exact E|].
  intros a b _ Hb. unfold lower_field in Hb. destruct (lower_type look params (sf_ty a)) as [t|] eqn:Et; [|discriminate]. injection Hb as <-.
  exact (lower_no_gen _ _ _ _ Et).
Qed.
Lemma lowered_no_gen {F} (outs : list (str * list (sdef F))) E : lower_project outs = Some E -> Forall no_gen_def E.
Proof.
  apply all_opt_all. intros e d _ H. unfold lower_entry in H.
  destruct (existsb _ _); [discriminate|]. destruct (e_body e) as [fs|vs].
  - destruct (lower_fields _ _ fs) as [fs'|] eqn:Ef; [|discriminate]. injection H as <-. intros x [<-|[]]. exact (lower_fields_no_gen _ _ _ _ Ef).
  - destruct (all_opt _ vs) as [vs'|] eqn:Ev; [|discriminate]. injection H as <-. intros x Hx. cbn [bodies] in Hx.
    apply (all_opt_all _ (fun v => no_gen_fields (v_fields v))) in Ev.
    + apply in_map_iff in Hx as (v & <- & Hv). rewrite Forall_forall in Ev. exact (Ev v Hv).
    + intros a b _ Hb. unfold lower_variant in Hb. destruct (lower_fields _ _ (sv_fields a)) as [fs'|] eqn:Ef; [|discriminate]. injection Hb as <-.
      exact (lower_fields_no_gen _ _ _ _ Ef).
Qed.

(** rustc accepts the code generated for a project exactly when every definition of the schema is within
    the limits of RustSpec.v. *)
Theorem C69_type_checks_exact_partial : forall (F : Type) (bt : bytes_type) (outs : list (str * list (sdef F))) (E : env),
  lower_project outs = Some E ->
  forallb (type_checks bt) E = true <-> Forall (fits_def bt) E.
Proof.
  intros F bt outs E HE. pose proof (lowered_no_gen outs E HE) as Hng. clear HE.
  induction Hng as [|d E Hd _ IH]; [split; [constructor|reflexivity]|]. cbn [forallb]. rewrite andb_true_iff, IH, (type_checks_iff bt d Hd).
  split; [intros [H1 H2]; constructor; assumption|intros H; inversion H; subst; split; assumption].
Qed.
Print Assumptions C69_type_checks_exact_partial.

(** The project of C49_ex is within the limits. *)
Example C69_ex : exists E, lower_project (outs_of PropProject.good) = Some E /\ forallb (type_checks BVecU8) E = true /\ forallb (type_checks BBytes) E = true.
Proof. eexists. split; [reflexivity|]. split; vm_compute; reflexivity. Qed.

(** The claim itself is false: projects that pass all checks, for which the generator does not panic and
    every name in the code means what it should, but that rustc rejects. *)
Definition rejected (bt : bytes_type) (values : list (str * pschema unit)) : Prop :=
  accepted values /\ exists E, lower_project (outs_of values) = Some E /\ wf_schema (arities (outs_of values)) E = true /\ env_ok E = true
    /\ forallb (type_checks bt) E = false.
Definition one_schema (ds : list (pdef unit)) : list (str * pschema unit) := [([109], PSchema [] ds)].
Definition tup (a b : pty) : pty := PTuple (Punct [a] b false).
Definition named1 (n : str) (f : str) (t : pty) : pdef unit := PStruct [] [] n None (FNamed (one (NField [] f t None))).
Definition generic1 (n : str) (t : pty) : pdef unit := PStruct [] [] n (Some (one [84])) (FUnnamed (one (UField t None))).

Ltac reject := split; [split; [apply project_check_ok; reflexivity|]; split; [reflexivity|]; split; [repeat constructor|reflexivity]
                      |eexists; split; [reflexivity|]; split; [reflexivity|]; split; [reflexivity|]; vm_compute; reflexivity].

(** [struct A((u8, option<u8>))]: [encode_option(w, &n0.1, ..)] is right, but [size_option(&n0.1.as_ref(), ..)] is not; *)
Theorem C69_tuple_option_refuted : forall bt, rejected bt (one_schema [field1 [65] (tup (PPrim PrU8) (POption (PPrim PrU8)))]).
Proof. intros bt; destruct bt; reject. Qed.
Print Assumptions C69_tuple_option_refuted.
(** [struct A((u8, non_zero<u8>))]; *)
Theorem C69_tuple_non_zero_refuted : forall bt, rejected bt (one_schema [field1 [65] (tup (PPrim PrU8) (PNonZero (PPrim PrU8)))]).
Proof. intros bt; destruct bt; reject. Qed.
Print Assumptions C69_tuple_non_zero_refuted.
(** [struct A(((u8, u8), u8))]: a number in a tuple in a tuple; *)
Theorem C69_nested_tuple_refuted : forall bt, rejected bt (one_schema [field1 [65] (tup (tup (PPrim PrU8) (PPrim PrU8)) (PPrim PrU8))]).
Proof. intros bt; destruct bt; reject. Qed.
Print Assumptions C69_nested_tuple_refuted.
(** [struct A(hash_set<f32>)], [struct K(u8) struct A(hash_map<K, u8>)], [struct A<T>(hash_set<T>)]: keys that
    cannot be hashed; *)
Theorem C69_float_key_refuted : forall bt, rejected bt (one_schema [field1 [65] (PHashSet (PPrim PrF32))]).
Proof. intros bt; destruct bt; reject. Qed.
Print Assumptions C69_float_key_refuted.
Theorem C69_struct_key_refuted : forall bt, rejected bt (one_schema [field1 [75] (PPrim PrU8); field1 [65] (PHashMap (ref [75]) (PPrim PrU8))]).
Proof. intros bt; destruct bt; reject. Qed.
Print Assumptions C69_struct_key_refuted.
Theorem C69_generic_key_refuted : forall bt, rejected bt (one_schema [generic1 [65] (PHashSet (ref [84]))]).
Proof. intros bt; destruct bt; reject. Qed.
Print Assumptions C69_generic_key_refuted.
(** [struct A { w: u8 }], likewise with [r] and [id]: the names of variables in the generated functions; *)
Theorem C69_field_name_refuted : forall bt x, In x reserved -> rejected bt (one_schema [named1 [65] x (PPrim PrU8)]).
Proof. intros bt x [<-|[<-|[<-|[]]]]; destruct bt; reject. Qed.
Print Assumptions C69_field_name_refuted.
(** [struct B<T>(T) struct A(B<(u8, u8)>)], [struct A(B<non_zero<u8>>)]: arguments without implementations; *)
Theorem C69_argument_refuted : forall bt, rejected bt (one_schema [generic1 [66] (ref [84]); field1 [65] (PExternal [] [66] (Some (one (tup (PPrim PrU8) (PPrim PrU8)))))])
  /\ rejected bt (one_schema [generic1 [66] (ref [84]); field1 [65] (PExternal [] [66] (Some (one (PNonZero (PPrim PrU8)))))]).
Proof. intros bt; destruct bt; split; reject. Qed.
Print Assumptions C69_argument_refuted.
(** [struct A(box<bytes>)] and [struct B<T>(T) struct A(B<bytes>)] with [BytesType::Bytes], although both work with [Vec<u8>]. *)
Theorem C69_bytes_type_refuted :
  rejected BBytes (one_schema [field1 [65] (PPrim PrBoxBytes)])
  /\ rejected BBytes (one_schema [generic1 [66] (ref [84]); field1 [65] (PExternal [] [66] (Some (one (PPrim PrBytes))))])
  /\ ~ rejected BVecU8 (one_schema [field1 [65] (PPrim PrBoxBytes)])
  /\ ~ rejected BVecU8 (one_schema [generic1 [66] (ref [84]); field1 [65] (PExternal [] [66] (Some (one (PPrim PrBytes))))]).
Proof.
  split; [reject|]. split; [reject|]. split; intros (_ & E & HE & _ & _ & H); vm_compute in HE; injection HE as <-; vm_compute in H; discriminate H.
Qed.
Print Assumptions C69_bytes_type_refuted.

(** * C70: the code does what the schema says *)
Lemma portable_passable bt t : portable bt t = true -> passable bt t = true.
Proof.
  induction t as [t Hl|t IH|a b IHa IHb|t IH|t IH|t IH|ts IH|t len IH|i args IH|t IH] using ty_ind'; cbn [portable passable]; intros H; try discriminate H; try (exact (IH H)).
  - destruct t; try discriminate Hl; exact H.
  - apply andb_prop in H as [H Hb]. apply andb_prop in H as [_ Ha]. rewrite (IHa Ha), (IHb Hb). reflexivity.
  - apply andb_prop in H as [_ H]. exact (IH H).
  - rewrite forallb_forall in *. rewrite Forall_forall in IH. intros x Hx. exact (IH x Hx (H x Hx)).
Qed.
Lemma portable_all bt args : forallb (portable bt) args = true -> forallb (passable bt) args = true.
Proof. rewrite !forallb_forall. intros H x Hx. exact (portable_passable bt x (H x Hx)). Qed.

(** Running the [size] and [encode] functions generated for a definition gives the size and the bytes
    that the format prescribes for the value: Codec.v defines both from the schema, without
    reference to the code.  [n] bounds the depth of the calls. *)
Theorem C70_size : forall (F : Type) (bt : bytes_type) (outs : list (str * list (sdef F))) (E : env),
  lower_project outs = Some E -> forallb (type_checks bt) E = true ->
  forall i args v n, forallb (portable bt) args = true -> typed E (TExt i args) v = true -> (vdepth v <= n)%nat ->
  run_size bt E n i args v = Some (size E (TExt i args) v).
Proof.
  intros F bt outs E HE Htc i args v n Ha Ht Hn. apply (C69_type_checks_exact_partial F bt outs E HE) in Htc.
  exact (run_size_ok bt E Htc n i args v (portable_all bt args Ha) Ht Hn).
Qed.
Print Assumptions C70_size.
Theorem C70_encode : forall (F : Type) (bt : bytes_type) (outs : list (str * list (sdef F))) (E : env),
  lower_project outs = Some E -> forallb (type_checks bt) E = true ->
  forall i args v n, forallb (portable bt) args = true -> typed E (TExt i args) v = true -> (vdepth v <= n)%nat ->
  run_encode bt E n i args v = Some (encode E false (TExt i args) v).
Proof.
  intros F bt outs E HE Htc i args v n Ha Ht Hn. apply (C69_type_checks_exact_partial F bt outs E HE) in Htc.
  exact (run_encode_ok bt E Htc n i args v (portable_all bt args Ha) Ht Hn).
Qed.
Print Assumptions C70_encode.
(** The [decode] function returns the same value and rest, or the same error, for every input. *)
Theorem C70_decode : forall (F : Type) (bt : bytes_type) (outs : list (str * list (sdef F))) (E : env),
  lower_project outs = Some E -> forallb (type_checks bt) E = true ->
  forall i args r n, forallb (portable bt) args = true -> (length r < n)%nat ->
  run_decode bt E n i args r = decode E false (TExt i args) r.
Proof.
  intros F bt outs E HE Htc i args r n Ha Hn. apply (C69_type_checks_exact_partial F bt outs E HE) in Htc.
  rewrite (run_decode_ok bt E Htc n i args (portable_all bt args Ha) r). unfold decode. cbn [dec_ty]. apply dec_ext_depth; lia.
Qed.
Print Assumptions C70_decode.
(** What the generated code writes the generated code reads, under the conditions of C14. *)
Theorem C14_generated_partial : forall (F : Type) (bt : bytes_type) (outs : list (str * list (sdef F))) (E : env),
  lower_project outs = Some E -> forallb (type_checks bt) E = true -> env_ok E = true ->
  forall i args v rest bytes n n', forallb (portable bt) args = true -> typed E (TExt i args) v = true ->
  prefix_ok E (TExt i args) v = true -> (vdepth v <= n)%nat ->
  run_encode bt E n i args v = Some bytes -> lenN bytes < 2 ^ 64 -> (length (bytes ++ rest) < n')%nat ->
  run_decode bt E n' i args (bytes ++ rest) = Ok (v, rest).
Proof.
  intros F bt outs E HE Htc Hok i args v rest bytes n n' Ha Ht Hp Hn Hb Hl Hn'.
  rewrite (C70_encode F bt outs E HE Htc i args v n Ha Ht Hn) in Hb. injection Hb as <-.
  rewrite (C70_decode F bt outs E HE Htc i args _ n' Ha Hn'). exact (C14_roundtrip_partial E false (TExt i args) v rest Hok Ht Hp Hl).
Qed.
Print Assumptions C14_generated_partial.

(** The second definition of the project of C49_ex, with a point, a list and a list that is not empty. *)
Definition good_env : env := Eval vm_compute in match lower_project (outs_of PropProject.good) with Some E => E | None => [] end.
Definition good_value : val :=
  VRec [VRec [VInt 300]; VList [VRec [VInt 7; VSome (VInt 9)]; VRec [VInt 8; VNone]]; VList [VRec [VInt 1; VNone]]].
Definition good_bytes : list N := Eval vm_compute in match run_encode BVecU8 good_env 5 1 [] good_value with Some b => b | None => [] end.
Example C70_ex : lower_project (outs_of PropProject.good) = Some good_env /\ forallb (type_checks BVecU8) good_env = true /\ env_ok good_env = true
  /\ typed good_env (TExt 1 []) good_value = true /\ prefix_ok good_env (TExt 1 []) good_value = true
  /\ run_encode BVecU8 good_env 5 1 [] good_value = Some good_bytes /\ run_size BVecU8 good_env 5 1 [] good_value = Some 21
  /\ run_decode BVecU8 good_env 50 1 [] (good_bytes ++ [1; 2]) = Ok (good_value, [1; 2]).
Proof. split; [reflexivity|]. vm_compute. repeat split. Qed.

(** * C71: recursive definitions *)
(** rustc can generate the code for decoding a type exactly when following its fields ends. *)
Theorem C71_recursive_exact : forall (F : Type) (bt : bytes_type) (outs : list (str * list (sdef F))) (E : env),
  lower_project outs = Some E -> forallb (type_checks bt) E = true ->
  forall i args, forallb (portable bt) args = true -> instantiable bt E i args <-> ends E i args.
Proof.
  intros F bt outs E HE Htc i args Ha. apply (C69_type_checks_exact_partial F bt outs E HE) in Htc.
  exact (instantiable_iff bt E Htc i args (portable_all bt args Ha)).
Qed.
Print Assumptions C71_recursive_exact.
(** That is so if the definitions can be ordered such that each only uses earlier ones. *)
Theorem C71_ordered : forall (F : Type) (bt : bytes_type) (outs : list (str * list (sdef F))) (E : env) (rank : nat -> nat),
  lower_project outs = Some E -> forallb (type_checks bt) E = true ->
  (forall i d f j, nth_error E i = Some d -> In f (flat_map kind_fields (bodies d)) -> In j (names (f_ty f)) -> (rank j < rank i)%nat) ->
  forall i, instantiable bt E i [].
Proof.
  intros F bt outs E rank HE Htc Hr i. apply (C71_recursive_exact F bt outs E HE Htc i []); [reflexivity|].
  exact (ranked_ends E rank Hr (S (rank i)) i [] ltac:(lia) ltac:(constructor)).
Qed.
Print Assumptions C71_ordered.
(** A type that occurs in itself never works. *)
Theorem C71_recursive_never : forall (F : Type) (bt : bytes_type) (outs : list (str * list (sdef F))) (E : env),
  lower_project outs = Some E -> forallb (type_checks bt) E = true ->
  forall i args, forallb (portable bt) args = true -> Relation_Operators.clos_trans _ (inside E) (i, args) (i, args) -> ~ instantiable bt E i args.
Proof.
  intros F bt outs E HE Htc i args Ha Hc Hi. apply (C71_recursive_exact F bt outs E HE Htc i args Ha) in Hi.
  unfold ends in Hi. apply Transitive_Closure.Acc_clos_trans in Hi. revert Hc.
  induction Hi as [x _ IH]. intros Hc. exact (IH x Hc Hc).
Qed.
Print Assumptions C71_recursive_never.

Example C71_ex : forall i, instantiable BVecU8 good_env i [].
Proof.
  apply (C71_ordered unit BVecU8 (outs_of PropProject.good) good_env (fun i => match i with 1%nat => 1 | _ => 0 end)%nat); [reflexivity|reflexivity|].
  intros i d f j Hd Hf Hj. destruct i as [|[|[|i]]]; [| | |destruct i; discriminate Hd]; injection Hd as <-; cbn in Hf;
    repeat (destruct Hf as [<-|Hf]; [cbn in Hj; repeat (destruct Hj as [<-|Hj]; [lia|]); destruct Hj|]); destruct Hf.
Qed.

(** The claim is false: projects that pass all checks and whose code type checks, but that cannot be
    compiled.  [struct A(vec<A>)] and [struct A { next: option<A> }]: *)
Definition cyclic (bt : bytes_type) (values : list (str * pschema unit)) : Prop :=
  accepted values /\ exists E, lower_project (outs_of values) = Some E /\ forallb (type_checks bt) E = true /\ env_ok E = true
    /\ ~ instantiable bt E 0 [].
Ltac in_itself :=
  split; [split; [apply project_check_ok; reflexivity|]; split; [reflexivity|]; split; [repeat constructor|reflexivity]|];
  match goal with |- exists E, lower_project ?outs = Some E /\ _ =>
    let E := eval vm_compute in (lower_project outs) in
    match E with Some ?E =>
      assert (HE : lower_project outs = Some E) by (vm_compute; reflexivity);
      exists E; split; [exact HE|]; split; [vm_compute; reflexivity|]; split; [reflexivity|];
      apply (C71_recursive_never unit _ outs E HE); [vm_compute; reflexivity|reflexivity|];
      apply Relation_Operators.t_step; eexists; split; [left; reflexivity|left; reflexivity]
    end
  end.
Theorem C71_vec_refuted : forall bt, cyclic bt (one_schema [field1 [65] (PVec (ref [65]))]).
Proof. intros bt; destruct bt; in_itself. Qed.
Print Assumptions C71_vec_refuted.
Theorem C71_option_refuted : forall bt, cyclic bt (one_schema [named1 [65] [110; 101; 120; 116] (POption (ref [65]))]).
Proof. intros bt; destruct bt; in_itself. Qed.
Print Assumptions C71_option_refuted.
