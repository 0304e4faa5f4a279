(** Semantics of the [Size] methods crates/mabo-go generates.

    As in [Go], the runtime package buf is not part of this repository and is a parameter: [go_sizes] has one component per function the emitted code calls.  The emitted
    code for a tuple calls a function literal without parameters with one argument (size.rs L277-292) and does not compile ([size_expr] below); [go_size] gives it the
    intended meaning.  Simplifications as in [Go]; Go's [int] is unbounded. *)
From Verif Require Import Base Varint Wire Codec Go.
Local Open Scope nat_scope.

Record go_sizes := GoSizes {
  (* SizeBool .. SizeF64, SizeString, SizeBytes: size.rs L128-146 *)
  gz_prim : ty -> val -> nat;
  (* SizeVec, SizeHashSet, SizeArray<n>, given the sizes of the elements: size.rs L147-164, L206-223, L293-313 *)
  gz_seq : seq_kind -> list nat -> nat;
  (* SizeHashMap: size.rs L165-205 *)
  gz_map : list (nat * nat) -> nat;
  (* SizeOption: size.rs L224-241 *)
  gz_option : option nat -> nat;
  (* SizeField, SizeFieldOption: size.rs L82-110 *)
  gz_field : N -> nat -> nat;
  gz_field_option : N -> option nat -> nat;
  (* EndMarkerSize: size.rs L113 *)
  gz_end : nat
}.

Section WithBuf.
Variable Z : go_sizes.
Variable E : env.

Section Fields.
Variable sz : ty -> val -> nat.
(** size.rs L75-115 [RenderFields]: [size += buf.SizeField..(id, ..)] per field, in order, from [size := 0]. *)
Fixpoint gz_fields (fs : list field) (vs : list val) (size : nat) {struct vs} : nat :=
  match fs, vs with
  | f :: fs', v :: vs' =>
      gz_fields fs' vs'
        (size + match f_ty f with
                | TOption t => gz_field_option Z (f_id f) (match v with VSome x => Some (sz t x) | _ => None end)
                | t => gz_field Z (f_id f) (sz t v)
                end)
  | _, _ => size
  end.
Definition gz_body (fs : fields) (vs : list val) : nat :=
  match fs_kind fs with
  | KUnit => 0
  | _ => gz_fields (fs_list fs) vs 0 + gz_end Z
  end.
(** size.rs L277-292: [size += ..] for every element of a tuple. *)
Fixpoint gz_tuple (ts : list ty) (vs : list val) (size : nat) {struct vs} : nat :=
  match ts, vs with
  | t :: ts', v :: vs' => gz_tuple ts' vs' (size + sz t v)
  | _, _ => size
  end.
End Fields.

(** size.rs L121-319 [RenderType]; the [Size] methods of size.rs L12-36 [RenderStruct] and L38-73 [RenderEnumVariant]. *)
Fixpoint go_size (t : ty) (v : val) {struct v} : nat :=
  match go_inner t, v with
  | TVec t', VList l => gz_seq Z SqVec (map (go_size t') l)
  | TSet t', VList l => gz_seq Z SqSet (map (go_size t') l)
  | TArray t' n, VList l => gz_seq Z (SqArray n) (map (go_size t') l)
  | TMap tk tv, VMap l => gz_map Z (map (fun kv => (go_size tk (fst kv), go_size tv (snd kv))) l)
  | TOption t', VSome x => gz_option Z (Some (go_size t' x))
  | TOption t', VNone => gz_option Z None
  | TTuple ts, VList l => gz_tuple go_size ts l 0
  | TExt i args, VRec vs =>
      match nth_error E i with
      | Some (DStruct fs) => gz_body go_size (inst args fs) vs
      | _ => 0
      end
  | TExt i args, VVar idx vs =>
      match nth_error E i with
      | Some (DEnum vars) =>
          match nth_error vars idx with
          | Some var => gz_body go_size (inst args (v_fields var)) vs
          | None => 0
          end
      | _ => 0
      end
  | t', _ => gz_prim Z t' v
  end.
End WithBuf.

(** The shape of the emitted expression: a call of a runtime function or method with function literals as callbacks, or a call of a function literal.  [lit params body] is a
    function literal; the second component of [call_lit] is the number of arguments passed. *)
Inductive gexpr :=
| call_fn (callbacks : list (nat * gexpr))
| call_lit (params : nat) (body : list gexpr) (args : nat).

(** size.rs L121-319 [RenderType]: the expression for a type; [None]: the generator panics. *)
Fixpoint size_expr (t : ty) : option gexpr :=
  match t with
  | TVec t' | TSet t' | TOption t' => option_map (fun e => call_fn [(1, e)]) (size_expr t')
  | TMap k v => match size_expr k, size_expr v with Some a, Some b => Some (call_fn [(1, a); (1, b)]) | _, _ => None end
  | TNonZero t' => if go_nz t' then size_expr t' else None
  | TTuple ts =>
      if (2 <=? length ts) && (length ts <=? 12) then
        option_map (fun es => call_lit 0 es 1)
          ((fix all (l : list ty) : option (list gexpr) :=
              match l with
              | [] => Some []
              | t :: l' => match size_expr t, all l' with Some e, Some es => Some (e :: es) | _, _ => None end
              end) ts)
      else None
  | TArray t' n => if (1 <=? n) && (n <=? 32) then option_map (fun e => call_fn [(1, e)]) (size_expr t') else None
  | TParam _ | TGen _ => Some (call_fn [])
  | _ => Some (call_fn [])
  end.
