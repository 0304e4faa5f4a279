(** C61: a constant of an accepted schema is available in the generated code with the value the schema gives it.

    True of constants whose literal is a value of their type, and only of those; the compiler checks neither type nor
    literal of a constant. *)
From Verif Require Import Base Syntax Parser Compiler ParserSpec ParserRound Resolve Tools Const PropParser.
Require Coq.Strings.String.
Import Coq.Strings.String.StringSyntax.
Local Open Scope N_scope.

(** What a literal says in the generated code. *)
Definition says {F} (k : rtok F) (v : lit F) : Prop :=
  match k, v with
  | RBool b, LBool b' => b = b'
  | RInt z, LInt z' => z = z'
  | RFloat f, LFloat f' => f = f'
  | RStr s, LString s' => s = s'
  | RByteStr b, LBytes b' => b = b'
  | _, _ => False
  end.

(** The constant is written to the generated code, with its value, and compiles there, if and only if it is one. *)
Theorem C61_values_partial : forall (F : Type) (finite f32_finite : F -> bool) (name : str) (p : prim) (v : lit F),
  (exists it, compile_const finite name (SPrim p) v = Some it /\ ri_name it = name /\ says (ri_value it) v
              /\ rust_accepts finite f32_finite (ri_ty it) (ri_value it))
  <-> is_value finite f32_finite p v.
Proof.
  intros F fin f32 n p v. split.
  - intros (it & H & _ & _ & Hr). unfold compile_const in H.
    destruct p; cbn [compile_const_data_type] in H; try discriminate H;
    (destruct v; cbn [compile_literal] in H; try (destruct (fin f) eqn:Hf; [|discriminate H]); injection H as <-; cbn [ri_ty ri_value] in Hr;
     inversion Hr; subst; cbn [is_value int_bounds]; unfold in_range in *; eauto 8).
  - intros H. unfold compile_const. destruct v; cbn [is_value] in H.
    + subst p. eexists. split; [reflexivity|]. repeat split; constructor.
    + destruct H as (lo & hi & Hb & Hz). destruct p; try discriminate Hb; injection Hb as <- <-;
        (eexists; split; [reflexivity|]; repeat split; constructor; exact Hz).
    + destruct H as [Hf [->|[-> H32]]]; cbn [compile_const_data_type compile_literal]; rewrite Hf;
        (eexists; split; [reflexivity|]; repeat split; constructor; assumption).
    + destruct H as [->| ->]; (eexists; split; [reflexivity|]; repeat split; constructor).
    + destruct H as [->| ->]; (eexists; split; [reflexivity|]; repeat split; constructor).
Qed.
Print Assumptions C61_values_partial.
(** const A: i8 = -128 and const A: &bytes = [1,2]. *)
Example C61_ex : is_value (F := unit) (fun _ => true) (fun _ => true) PrI8 (LInt (-128))
  /\ is_value (F := unit) (fun _ => true) (fun _ => true) PrBytesRef (LBytes [1; 2])
  /\ ~ is_value (F := unit) (fun _ => true) (fun _ => true) PrI8 (LInt 128).
Proof.
  split; [cbn; eexists; eexists; split; [reflexivity|lia]|]. split; [right; reflexivity|].
  intros (lo & hi & H & Hz). injection H as <- <-. lia.
Qed.

(** * Nothing checks the literal: other literals make the same verdict. *)
Section Relit.
Context {F : Type}.
(** Write other literals into all constants of a definition. *)
Variable change : str -> lit F -> lit F.
Fixpoint relit (d : pdef F) : pdef F :=
  match d with
  | PModule c n ds => PModule c n (map relit ds)
  | PConst c n t v => PConst c n t (change n v)
  | d => d
  end.
Definition relit_schema (s : pschema F) : pschema F := PSchema (ps_comment s) (map relit (ps_defs s)).
Fixpoint remod (m : rmod F) : rmod F :=
  match m with
  | RMod n p i t subs ds => RMod n p i t (map (fun e => (fst e, remod (snd e))) subs) (map relit ds)
  end.
Definition re_entry (e : str * rmod F) : str * rmod F := (fst e, remod (snd e)).

Lemma def_name_relit d : def_name (relit d) = def_name d.
Proof. destruct d; reflexivity. Qed.
Lemma module_names_relit l : forall seen, module_names seen (map relit l) = module_names seen l.
Proof. induction l as [|d l IH]; intros seen; [reflexivity|]. cbn [map module_names]. rewrite def_name_relit. destruct (def_name d); [destruct (seen_name s seen); [reflexivity|]|]; apply IH. Qed.
Lemma validate_relit pick chk : forall d, validate_definition pick chk (relit d) = validate_definition pick chk d.
Proof.
  induction d as [c n ds IH| | | | |] using pdef_ind2; try reflexivity.
  cbn [relit validate_definition]. unfold validate_names_in_module. rewrite module_names_relit. destruct (module_names [] ds); [reflexivity|]. cbn [cbind].
  induction ds as [|d ds IHd]; [reflexivity|]. cbn [map each]. rewrite IH by (left; reflexivity). rewrite IHd by (intros; apply IH; right; assumption). reflexivity.
Qed.
Lemma validate_schema_relit pick chk s : validate_schema pick chk (relit_schema s) = validate_schema pick chk s.
Proof.
  unfold validate_schema, relit_schema, validate_names_in_module. cbn [ps_defs]. rewrite module_names_relit. destruct (module_names [] (ps_defs s)); [reflexivity|]. cbn [cbind].
  induction (ps_defs s) as [|d ds IHd]; [reflexivity|]. cbn [map each]. rewrite validate_relit, IHd. reflexivity.
Qed.

Lemma import_relit d : import_of (relit d) = import_of d.
Proof. destruct d; reflexivity. Qed.
Lemma decl_relit d : decl_of (relit d) = decl_of d.
Proof. destruct d; reflexivity. Qed.
Lemma flat_relit {B} (f : pdef F -> list B) ds : (forall d, In d ds -> f (relit d) = f d) -> flat_map f (map relit ds) = flat_map f ds.
Proof. induction ds as [|d ds IH]; intros H; [reflexivity|]. cbn. rewrite H by (left; reflexivity). rewrite IH by (intros; apply H; right; assumption). reflexivity. Qed.
Lemma insert_re l e : insert_mod (map re_entry l) (re_entry e) = map re_entry (insert_mod l e).
Proof.
  unfold insert_mod. rewrite map_app. f_equal. induction l as [|x l IH]; [reflexivity|]. cbn [map filter]. unfold re_entry at 1 2. cbn [fst].
  destruct (str_eqb (fst x) (fst e)); cbn [negb]; [exact IH|]. cbn [map]. f_equal. exact IH.
Qed.
Lemma collect_re l : collect (map (option_map re_entry) l) = map re_entry (collect l).
Proof.
  unfold collect. change (@nil (str * rmod F)) with (map re_entry []) at 1. generalize (@nil (str * rmod F)). induction l as [|o l IH]; intros acc; [reflexivity|].
  cbn [map fold_left]. destruct o as [e|]; cbn [option_map]; [rewrite insert_re|]; apply IH.
Qed.
Lemma module_of_relit : forall d path, module_of path (relit d) = option_map re_entry (module_of path d).
Proof.
  induction d as [c n ds IH| | | | |] using pdef_ind2; intros path; try reflexivity.
  cbn [relit module_of option_map]. unfold re_entry. cbn [fst snd remod]. do 2 f_equal.
  rewrite (flat_relit import_of) by (intros; apply import_relit). rewrite (flat_relit decl_of) by (intros; apply decl_relit). f_equal.
  rewrite <- collect_re. f_equal. rewrite map_map, map_map. apply map_ext_in. intros d Hd. apply IH, Hd.
Qed.
Lemma resolve_types_relit n s : resolve_types n (relit_schema s) = remod (resolve_types n s).
Proof.
  unfold resolve_types, module_tree, relit_schema. cbn [ps_defs remod].
  rewrite (flat_relit import_of) by (intros; apply import_relit). rewrite (flat_relit decl_of) by (intros; apply decl_relit). f_equal.
  change (map (fun e : str * rmod F => (fst e, remod (snd e)))) with (map re_entry). rewrite <- collect_re. f_equal. rewrite map_map, map_map. apply map_ext. intros d. apply module_of_relit.
Qed.

Lemma m_path_re m : m_path (remod m) = m_path m. Proof. destruct m; reflexivity. Qed.
Lemma m_name_re m : m_name (remod m) = m_name m. Proof. destruct m; reflexivity. Qed.
Lemma m_types_re m : m_types (remod m) = m_types m. Proof. destruct m; reflexivity. Qed.
Lemma m_imports_re m : m_imports (remod m) = m_imports m. Proof. destruct m; reflexivity. Qed.
Lemma m_modules_re m : m_modules (remod m) = map re_entry (m_modules m). Proof. destruct m; reflexivity. Qed.
Lemma get_re n l : get_mod n (map re_entry l) = option_map remod (get_mod n l).
Proof. induction l as [|[k m] l IH]; [reflexivity|]. cbn. destruct (str_eqb k n); [reflexivity|exact IH]. Qed.
Definition map_ok {E A B} (f : A -> B) (r : cres E A) : cres E B :=
  match r with COk a => COk (f a) | CErr e => CErr e | CPanic => CPanic end.
Lemma walk_re {E} (miss : str -> list str -> E) path : forall m, walk miss (remod m) path = map_ok remod (walk miss m path).
Proof.
  induction path as [|n path IH]; intros m; [reflexivity|]. cbn [walk]. rewrite m_modules_re, get_re, m_path_re.
  destruct (get_mod n (m_modules m)); cbn [option_map]; [apply IH|reflexivity].
Qed.
Lemma resolve_local_re m e : resolve_local (remod m) e = resolve_local m e.
Proof. destruct e as [[path n] g]. cbn [resolve_local]. rewrite walk_re. destruct (walk LMissingModule m path); cbn [map_ok cbind]; rewrite ?m_types_re, ?m_path_re; reflexivity. Qed.
Lemma missing_in_re m g t : missing_in (remod m) g t = missing_in m g t.
Proof. unfold missing_in. apply flat_map_ext. intros e. rewrite resolve_local_re. reflexivity. Qed.
Lemma missing_def_re m d : missing_def (remod m) (relit d) = missing_def m d.
Proof.
  destruct d as [| c a n g fs| c a n g vs | | |]; cbn [relit missing_def]; try reflexivity; [apply flat_map_ext; intros t; apply missing_in_re|].
  apply flat_map_ext. intros v. apply flat_map_ext. intros t. apply missing_in_re.
Qed.
Fixpoint resolve_module_re (m : rmod F) : resolve_module_types (remod m) = resolve_module_types m.
Proof.
  destruct m as [n p i t subs ds]. cbn [remod resolve_module_types]. f_equal.
  - change (RMod n p i t (map (fun e : str * rmod F => (fst e, remod (snd e))) subs) (map relit ds)) with (remod (RMod n p i t subs ds)).
    generalize (RMod n p i t subs ds). intros m. induction ds as [|d ds IH]; [reflexivity|]. cbn [map flat_map]. rewrite missing_def_re, IH. reflexivity.
  - induction subs as [|[k m] subs IH]; [reflexivity|]. cbn [map flat_map fst snd]. rewrite (resolve_module_re m), IH. reflexivity.
Qed.

Definition re_import (i : rimport F) : rimport F :=
  match i with RIModule m => RIModule (remod m) | RIType n k => RIType n k end.
Lemma resolve_import_re m i : resolve_import (remod m) i = map_ok re_import (resolve_import m i).
Proof.
  destruct i as [segs el]. unfold resolve_import. destruct (length segs <? 2)%nat.
  - cbn [cbind]. destruct el as [n|]; [|reflexivity]. rewrite m_types_re, m_path_re. destruct (find_decl n (m_types m)) as [d|]; [destruct (d_kind d)|]; reflexivity.
  - rewrite walk_re. destruct (walk IMissingModule m (skipn 1 segs)) as [m'| |]; cbn [map_ok cbind]; try reflexivity.
    destruct el as [n|]; [|reflexivity]. rewrite m_types_re, m_path_re. destruct (find_decl n (m_types m')) as [d|]; [destruct (d_kind d)|]; reflexivity.
Qed.
Lemma imports_re mods l : collect_imports (map re_entry mods) l = map_ok (map re_import) (collect_imports mods l).
Proof.
  induction l as [|i l IH]; [reflexivity|]. cbn [collect_imports]. rewrite IH.
  replace (resolve_one_import (map re_entry mods) i) with (map_ok re_import (resolve_one_import mods i)).
  - destruct (resolve_one_import mods i); cbn [map_ok cbind]; try reflexivity. destruct (collect_imports mods l); reflexivity.
  - unfold resolve_one_import, find_schema. destruct (fst i) as [|r ?]; [reflexivity|]. rewrite get_re. destruct (get_mod r mods); cbn [option_map]; [rewrite resolve_import_re|]; reflexivity.
Qed.
Lemma resolve_remote_re m e : resolve_remote (remod m) e = resolve_remote m e.
Proof.
  destruct e as [[path n] g]. unfold resolve_remote. rewrite walk_re, m_name_re. destruct path as [|f path].
  - cbn [walk map_ok cbind]. rewrite m_types_re, m_path_re. reflexivity.
  - destruct (str_eqb f (m_name m)); [cbn [cbind]; rewrite m_types_re, m_path_re; reflexivity|].
    destruct (walk RMissingModule m (f :: path)); cbn [map_ok cbind]; rewrite ?m_types_re, ?m_path_re; reflexivity.
Qed.
Lemma find_module_re n l : find_module_import n (map re_import l) = option_map remod (find_module_import n l).
Proof.
  unfold find_module_import. induction l as [|i l IH]; [reflexivity|]. cbn [map find]. destruct i as [m|x k]; cbn [re_import]; [|exact IH].
  rewrite m_name_re. destruct (str_eqb (m_name m) n); [reflexivity|exact IH].
Qed.
Lemma find_type_re n l : find_type_import n (map re_import l) = find_type_import n l.
Proof. unfold find_type_import. induction l as [|i l IH]; [reflexivity|]. cbn [map find]. destruct i as [m|x k]; cbn [re_import]; [exact IH|]. destruct (str_eqb x n); [reflexivity|exact IH]. Qed.
Lemma remotely_re t l : resolve_type_remotely t (map re_import l) = resolve_type_remotely t l.
Proof.
  destruct t as [[[path n] g] err]. unfold resolve_type_remotely. destruct l as [|i l]; [reflexivity|]. cbn [map].
  change (re_import i :: map re_import l) with (map re_import (i :: l)).
  destruct path as [|f path]; [rewrite find_type_re; reflexivity|]. rewrite find_module_re.
  destruct (find_module_import f (i :: l)); cbn [option_map]; [rewrite resolve_remote_re|]; reflexivity.
Qed.
Lemma each_ext {E A} (f g : A -> cres E unit) l : (forall x, f x = g x) -> each f l = each g l.
Proof. intros H. induction l as [|x l IH]; [reflexivity|]. cbn [each]. rewrite H, IH. reflexivity. Qed.
Lemma resolve_schemas_relit order values :
  resolve_schemas order (map (fun v => (fst v, relit_schema (snd v))) values) = resolve_schemas order values.
Proof.
  unfold resolve_schemas. rewrite map_map. cbn [fst snd].
  replace (map (fun x : str * pschema F => (fst x, resolve_types (fst x) (relit_schema (snd x)))) values)
    with (map re_entry (map (fun v : str * pschema F => (fst v, resolve_types (fst v) (snd v))) values))
    by (rewrite map_map; apply map_ext; intros [n s]; unfold re_entry; cbn [fst snd]; rewrite resolve_types_relit; reflexivity).
  generalize (map (fun v : str * pschema F => (fst v, resolve_types (fst v) (snd v))) values). intros mods.
  assert (H : forall l, each (fun v => resolve_one order (map re_entry mods) (snd v)) (map re_entry l) = each (fun v => resolve_one order mods (snd v)) l).
  { induction l as [|[k m] l IH]; [reflexivity|]. cbn [map each]. rewrite IH. f_equal. cbn [re_entry fst snd]. unfold resolve_one, resolve_module_imports.
    rewrite imports_re, m_imports_re, resolve_module_re. destruct (collect_imports mods (m_imports m)) as [is| |]; cbn [map_ok map_err cbind]; try reflexivity.
    apply each_ext. intros t. apply remotely_re. }
  apply H.
Qed.
End Relit.

(** Whatever literals the constants of a project have, the verdict on the project is the same (including which error is
    reported). *)
Theorem C61_literals_unchecked_refuted : forall (F : Type) (change : str -> lit F -> lit F) pick chk order (values : list (str * pschema F)),
  (forall n s, In (n, s) values -> validate_schema pick chk (relit_schema change s) = validate_schema pick chk s) /\
  resolve_schemas order (map (fun v => (fst v, relit_schema change (snd v))) values) = resolve_schemas order values.
Proof. intros F change pick chk order values. split; [intros n s _; apply validate_schema_relit|apply resolve_schemas_relit]. Qed.
Print Assumptions C61_literals_unchecked_refuted.

(** So these are accepted from their text on, and their code is written but does not compile:
    const A: u8 = "x"; and const A: u8 = 300; and const A: u8 = true; *)
Definition accepted {F} pick chk order (parse_f64 : str -> option F) (i : str) (s : pschema F) : Prop :=
  schema_parse parse_f64 i = Some s /\ validate_schema pick chk s = COk tt /\ resolve_schemas order [(tx "a", s)] = COk tt.
Theorem C61_type_refuted : forall (F : Type) (parse_f64 : str -> option F) finite f32_finite pick chk order text v,
  (forall l, order l = [] <-> l = []) ->
  In (text, v) [(tx "const A: u8 = ""x"";", LString (tx "x")); (tx "const A: u8 = 300;", LInt 300); (tx "const A: u8 = true;", LBool true)] ->
  accepted pick chk order parse_f64 text (PSchema [] [PConst [] (tx "A") (PPrim PrU8) v]) /\
  exists it, compile_const finite (tx "A") (simplify_type (PPrim PrU8)) v = Some it /\ ~ rust_accepts finite f32_finite (ri_ty it) (ri_value it).
Proof.
  intros F pf fin f32 pick chk order text v Ho Hin.
  assert (Hr : each (fun t => resolve_type_remotely t (@nil (rimport F))) (order []) = COk tt) by (rewrite (proj2 (Ho []) eq_refl); reflexivity).
  destruct Hin as [E|[E|[E|[]]]]; injection E as <- <-; (split; [split; [reflexivity|]; split; [reflexivity|]; cbn; rewrite Hr; reflexivity|];
    eexists; split; [reflexivity|]; intros H; inversion H; subst; unfold in_range in *; try lia; try discriminate).
Qed.
Print Assumptions C61_type_refuted.

(** const X: f64 = 10...0.0; with 309 zeros (1e309, more than any f64) is accepted, and the generator panics on it
    ([Literal::f64_unsuffixed]). *)
Definition huge : str := 49 :: repeat 48 309 ++ tx ".0".
Theorem C61_infinite_refuted : forall (F : Type) (parse_f64 : str -> option F) finite inf pick chk order,
  parse_f64 huge = Some inf -> finite inf = false -> (forall l, order l = [] <-> l = []) ->
  accepted pick chk order parse_f64 (tx "const X: f64 = " ++ huge ++ tx ";") (PSchema [] [PConst [] (tx "X") (PPrim PrF64) (LFloat inf)]) /\
  compile_const finite (tx "X") (simplify_type (PPrim PrF64)) (LFloat inf) = None.
Proof.
  intros F pf fin inf pick chk order Hp Hf Ho.
  assert (Hr : each (fun t => resolve_type_remotely t (@nil (rimport F))) (order []) = COk tt) by (rewrite (proj2 (Ho []) eq_refl); reflexivity).
  split; [|unfold compile_const; cbn; rewrite Hf; reflexivity].
  split; [|split; [reflexivity|cbn; rewrite Hr; reflexivity]].
  apply (C39_float_partial F pf (fun _ => huge) (fun _ => true) inf); [|exact Hp].
  exists [], (49 :: repeat 48 309), [48].
  split; [reflexivity|]. split; [left; reflexivity|]. split; [discriminate|].
  split; [constructor; [unfold digit; lia|]|split; [discriminate|repeat constructor; unfold digit; lia]]. apply Forall_forall. intros x Hx. apply repeat_spec in Hx. subst x. unfold digit. lia.
Qed.
Print Assumptions C61_infinite_refuted.

(** The upper half of u128 cannot be written: the parser rejects const A: u128 = 170141183460469231731687303715884105728;
    (that is 2^127), a value of its type. *)
Theorem C61_u128_refuted : forall (F : Type) (parse_f64 : str -> option F) (finite f32_finite : F -> bool),
  is_value finite f32_finite PrU128 (LInt (2 ^ 127)) /\
  schema_parse parse_f64 (tx "const A: u128 = 170141183460469231731687303715884105728;") = None /\
  schema_parse parse_f64 (tx "const A: u128 = 170141183460469231731687303715884105727;")
  = Some (PSchema [] [PConst [] (tx "A") (PPrim PrU128) (LInt (2 ^ 127 - 1))]).
Proof.
  intros F pf fin f32. split; [cbn; eexists; eexists; split; [reflexivity|lia]|]. split; vm_compute; reflexivity.
Qed.
Print Assumptions C61_u128_refuted.
