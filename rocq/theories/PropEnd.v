(** From the source texts on disk to running generated Rust code: C49, end to end. *)
From Verif Require Import Base Varint Wire Codec CodecSpec CodecProofs SchemaSpec Syntax Parser Compiler CompilerSpec CompilerClaims Resolve ResolveSpec Lower LowerProofs ProjectSpec
  PropCodec PropCompiler PropResolve PropProject Tools ToolsSpec PropBuild Safety Fuel RustCode RustEval RustTyping RustSpec RustItems RustEvalProofs RustDecProofs RustRecursion RustRecursionProofs PropRust.
Require Coq.Strings.String.
Import Coq.Strings.String.StringSyntax.
Local Open Scope N_scope.

(** The build succeeded.  Unless something is wrong where the compiler does not look (the conditions of C49), and within the
    limits of RustSpec.v: rustc accepts the code; if no type contains itself, its functions can be generated; and what the
    generated [encode] writes for a value the generated [decode] reads back, leaving what follows untouched. *)
Theorem C49_generated_partial : forall (F : Type) (parse_f64 : str -> option F) pick chk order gen out read files (bt : bytes_type),
  readable read -> distinct_stems files -> some_order order ->
  (forall o, forallb generates (snd o) = false -> gen o = GPanic) ->
  snd (compile parse_f64 pick chk order gen out read files) = BDone ->
  exists values outs, loaded parse_f64 read files values /\ simplified chk values outs
  /\ ((forall nm ds, In (nm, ds) (definitions_of values) ->
         hidden_ok ds /\ nested_local ds /\ unshadowed ds /\ prelude_free ds /\ field_ids_fit ds) ->
      exists E, lower_project outs = Some E /\ wf_schema (arities outs) E = true
        /\ (Forall (fits_def bt) E ->
            forallb (type_checks bt) E = true
            /\ forall i args, forallb (portable bt) args = true ->
               (ends E i args -> instantiable bt E i args)
               /\ forall v rest, typed E (TExt i args) v = true -> prefix_ok E (TExt i args) v = true ->
                  exists bytes, (forall n, (vdepth v <= n)%nat -> run_encode bt E n i args v = Some bytes)
                  /\ (lenN bytes < 2 ^ 64 -> forall n, (length (bytes ++ rest) < n)%nat ->
                      run_decode bt E n i args (bytes ++ rest) = Ok (v, rest)))).
Proof.
  intros F pf pick chk order gen out read files bt Hr Hd Ho Hg Hdone.
  destruct (C49_source_partial F pf pick chk order gen out read files Hr Hd Ho Hg Hdone) as (values & outs & Hl & Hs & H).
  exists values, outs. split; [exact Hl|]. split; [exact Hs|]. intros Hc. destruct (H Hc) as (E & HE & Hwf & Hok & _).
  exists E. split; [exact HE|]. split; [exact Hwf|]. intros Hf. apply (C69_type_checks_exact_partial F bt outs E HE) in Hf. split; [exact Hf|].
  intros i args Ha. split; [apply (C71_recursive_exact F bt outs E HE Hf i args Ha)|]. intros v rest Ht Hp.
  exists (encode E false (TExt i args) v). split; [intros n Hn; exact (C70_encode F bt outs E HE Hf i args v n Ha Ht Hn)|]. intros Hlen n Hn.
  exact (C14_generated_partial F bt outs E HE Hf Hok i args v rest _ (vdepth v) n Ha Ht Hp (le_n _) (C70_encode F bt outs E HE Hf i args v (vdepth v) Ha Ht (le_n _)) Hlen Hn).
Qed.
Print Assumptions C49_generated_partial.

(** The schemas of C55_ex meet the hypotheses: the build succeeds, the conditions hold (C49_ex) and the definitions are
    within the limits; C70_ex runs the code. *)
Example C49_generated_ex : snd (compile (fun _ : str => @None unit) pick0 true PropResolve.same gen0 [tx "out"] good_disk good_files) = BDone
  /\ Forall (fits_def BVecU8) good_env /\ typed good_env (TExt 1 []) good_value = true /\ prefix_ok good_env (TExt 1 []) good_value = true.
Proof.
  split; [vm_compute; reflexivity|]. split.
  - apply (C69_type_checks_exact_partial unit BVecU8 (outs_of PropProject.good) good_env); [reflexivity|vm_compute; reflexivity].
  - split; vm_compute; reflexivity.
Qed.
