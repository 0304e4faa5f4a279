(** Executing the Go files of [GoFile]: the meaning of the part of Go that mabo-go emits (the Go
    specification's sections on blocks, calls, assignments and on the statements if, for, switch,
    break and return), on the syntax tree of the file.

    The package buf is not part of the repository and is a parameter: a function for every name the
    code may call ([runtime]).  Methods are looked up in the file itself.  Programs that do not
    compile have no meaning here: [bad] (an arbitrary value, which theorems quantify over) or
    [Panic].  One reading is in the generator's favour, as in [Go]: [return value.Decode(r)] in a
    function with three results (decode.rs L334-349) returns the variable [value] too.

    Values of Mabo types are those of [Codec.val]; a variable of such a type also has its Go type,
    which decides on the methods.  Pointers are not distinguished from what they point at; nothing
    the emitted code does depends on it. *)
From Verif Require Import Base Varint Wire Codec Syntax Parser Printer Compiler GoNames GoFile.
From Verif Require Go GoSize.
Require Coq.Strings.String.
Import Coq.Strings.String.StringSyntax.
Local Open Scope N_scope.

Notation writer := (list N -> list N).

(** The functions of the package buf, by name. *)
Record runtime := Runtime {
  rt_write : str -> val -> list N;                       (* EncodeU8(w, v) ..: the bytes appended *)
  rt_write_seq : str -> list writer -> writer;           (* EncodeVec, EncodeHashSet, EncodeArray1 .. *)
  rt_write_map : str -> list (writer * writer) -> writer;
  rt_write_option : str -> option writer -> writer;
  rt_write_field : str -> N -> writer -> writer;
  rt_write_field_option : str -> N -> option writer -> writer;
  rt_end : N;                                            (* EndMarker *)
  rt_size : str -> val -> nat;                           (* SizeU8(v) .. *)
  rt_size_seq : str -> list nat -> nat;
  rt_size_map : str -> list (nat * nat) -> nat;
  rt_size_option : str -> option nat -> nat;
  rt_size_field : str -> N -> nat -> nat;
  rt_size_field_option : str -> N -> option nat -> nat;
  rt_end_size : nat;                                     (* EndMarkerSize *)
  rt_read : str -> dec val;                              (* DecodeU8(r) .., DecodeNonZeroU8(r) .. *)
  rt_read_id : str -> dec N;
  rt_read_seq : str -> dec val -> dec (list val);
  rt_read_map : str -> dec val -> dec val -> dec (list (val * val));
  rt_read_option : str -> dec val -> dec (option val)
}.

(** What a variable holds: bytes, a value with its Go type, an id, an int, a bool, [nil], an error. *)
Inductive gv :=
| BB (b : list N) | MV (g : gty) (v : val) | NN (n : N) | II (n : nat) | BL (b : bool) | NIL | ER (e : derr).
Definition scope := list (str * gv).
Fixpoint at_var (p : scope) (x : str) : option gv :=
  match p with
  | [] => None
  | (y, v) :: p' => if str_eqb y x then Some v else at_var p' x
  end.
(** An assignment to the innermost variable of that name. *)
Fixpoint assign_var (p : scope) (x : str) (v : gv) : scope :=
  match p with
  | [] => []
  | (y, u) :: p' => if str_eqb y x then (y, v) :: p' else (y, u) :: assign_var p' x v
  end.
Fixpoint index_of (n : str) (l : list str) : option nat :=
  match l with
  | [] => None
  | x :: l' => if str_eqb x n then Some O else option_map S (index_of n l')
  end.
Fixpoint set_nth {A} (k : nat) (v : A) (l : list A) : list A :=
  match l, k with
  | [], _ => []
  | _ :: l', O => v :: l'
  | x :: l', S k' => x :: set_nth k' v l'
  end.
(** The fields of mabo.Tuple2 .. are F0, F1, .. *)
Definition tuple_fields (k : nat) : list str := map (fun i => tx "F" ++ dec_str (N.of_nat i)) (seq 0 k).
(** The type [Get] of a type of the package mabo returns. *)
Definition nz_gets : list (str * gty) :=
  [(tx "NonZeroU8", gname "uint8"); (tx "NonZeroU16", gname "uint16"); (tx "NonZeroU32", gname "uint32"); (tx "NonZeroU64", gname "uint64");
   (tx "NonZeroU128", GPtr (GFrom (tx "big") (tx "Int") [])); (tx "NonZeroI8", gname "int8"); (tx "NonZeroI16", gname "int16");
   (tx "NonZeroI32", gname "int32"); (tx "NonZeroI64", gname "int64"); (tx "NonZeroI128", GPtr (GFrom (tx "big") (tx "Int") []));
   (tx "NonZeroString", gname "string"); (tx "NonZeroBytes", gbytes)].
Definition get_type (n : str) (args : list gty) : option gty :=
  match args with
  | [] => option_map snd (find (fun e => str_eqb (fst e) n) nz_gets)
  | [t] => if str_eqb n (tx "NonZeroVec") then Some (GSlice t) else if str_eqb n (tx "NonZeroHashSet") then Some (GMap t GEmpty) else None
  | [k; v] => if str_eqb n (tx "NonZeroHashMap") then Some (GMap k v) else None
  | _ => None
  end.

Section Eval.
Context {F : Type}.
Variables (items : list (gitem F)) (R : runtime).

(** The declaration of a struct, and the body of a method: receiver, parameters and statements. *)
Definition struct_decl (n : str) : option (list (str * gty)) :=
  option_map (map snd) (hd_error (flat_map (fun it => match it with IStruct _ m [] fs => if str_eqb m n then [fs] else [] | _ => [] end) items)).
Definition method_decl (n m : str) : option (list str * list gx) :=
  hd_error (flat_map (fun it => match it with IMethod true t [] m' ps _ b => if str_eqb t n && str_eqb m' m then [(map fst ps, b)] else [] | _ => [] end) items).

(** Expressions whose value is of a Mabo type: a variable, a field of a struct or tuple, a call of
    [Get], an address. *)
Fixpoint ev_v (p : scope) (e : gx) : option (gty * val) :=
  match e with
  | XId x => match at_var p x with Some (MV g v) => Some (g, v) | _ => None end
  | XAddr e => ev_v p e
  | XSel e f =>
      match ev_v p e with
      | Some (GNamed n [], VRec vs) =>
          match struct_decl n with
          | Some fs =>
              match index_of f (map fst fs) with
              | Some k => match nth_error fs k, nth_error vs k with Some (_, g), Some v => Some (g, v) | _, _ => None end
              | None => None
              end
          | None => None
          end
      | Some (GFrom pk n args, VList vs) =>
          if str_eqb pk (tx "mabo") && str_eqb n (tx "Tuple" ++ dec_str (N.of_nat (length args))) then
            match index_of f (tuple_fields (length args)) with
            | Some k => match nth_error args k, nth_error vs k with Some g, Some v => Some (g, v) | _, _ => None end
            | None => None
            end
          else None
      | _ => None
      end
  | XCall (XSel e m) [] =>
      if str_eqb m (tx "Get") then
        match ev_v p e with
        | Some (GFrom pk n args, v) => if str_eqb pk (tx "mabo") then option_map (fun g => (g, v)) (get_type n args) else None
        | _ => None
        end
      else None
  | _ => None
  end.

(** * Encode *)
Section Write.
Variables (bad : list N) (call : gty -> val -> writer).
(** The second argument of [EncodeU8] .. *)
Definition ev_arg (p : scope) (e : gx) : option val :=
  match e with
  | XFrom pk n [] => if str_eqb pk (tx "buf") && str_eqb n (tx "EndMarker") then Some (VInt (Z.of_N (rt_end R))) else None
  | _ => option_map snd (ev_v p e)
  end.
(** Expressions of type []byte. *)
Fixpoint ev_w (p : scope) (e : gx) {struct e} : list N :=
  let block := fix block (p : scope) (l : list gx) {struct l} : list N :=
    match l with
    | [YRet [e]] => ev_w p e
    | YSet (XId x) e :: l' => block (assign_var p x (BB (ev_w p e))) l'
    | _ => bad
    end in
  match e with
  | XId x => match at_var p x with Some (BB b) => b | Some _ => bad | None => if str_eqb x (tx "nil") then [] else bad end
  | XCall f args =>
      match f with
      | XFrom pk fn _ =>
          if str_eqb pk (tx "buf") then
            match args with
            | [a; b] => match ev_arg p b with Some v => ev_w p a ++ rt_write R fn v | None => bad end
            | [a; XNum id; XFun _ [(x, _)] _ [YRet [e']]] => rt_write_field R fn id (fun w => ev_w ((x, BB w) :: p) e') (ev_w p a)
            | [a; b; XFun _ [(x, _); (y, g)] _ [YRet [e']]] =>
                match ev_v p b with
                | Some (_, VList l) => rt_write_seq R fn (map (fun v w => ev_w ((y, MV g v) :: (x, BB w) :: p) e') l) (ev_w p a)
                | Some (_, VSome v) => rt_write_option R fn (Some (fun w => ev_w ((y, MV g v) :: (x, BB w) :: p) e')) (ev_w p a)
                | Some (_, VNone) => rt_write_option R fn None (ev_w p a)
                | _ => bad
                end
            | [a; XNum id; b; XFun _ [(x, _); (y, g)] _ [YRet [e']]] =>
                match ev_v p b with
                | Some (_, VSome v) => rt_write_field_option R fn id (Some (fun w => ev_w ((y, MV g v) :: (x, BB w) :: p) e')) (ev_w p a)
                | Some (_, VNone) => rt_write_field_option R fn id None (ev_w p a)
                | _ => bad
                end
            | _ => bad
            end
          else bad
      | XFun _ [(x, _)] _ body => match args with [a] => block ((x, BB (ev_w p a)) :: p) body | _ => bad end
      | XSel a m =>
          if str_eqb m (tx "Encode") then
            match args with [b] => match ev_v p a with Some (g, v) => call g v (ev_w p b) | None => bad end | _ => bad end
          else bad
      | _ => bad
      end
  | XCallLines (XFrom pk fn _) [a; b] [XFun _ [(x1, _); (y1, g1)] _ [YRet [e1]]; XFun _ [(x2, _); (y2, g2)] _ [YRet [e2]]] =>
      if str_eqb pk (tx "buf") then
        match ev_v p b with
        | Some (_, VMap l) =>
            rt_write_map R fn (map (fun kv => (fun w => ev_w ((y1, MV g1 (fst kv)) :: (x1, BB w) :: p) e1,
                                               fun w => ev_w ((y2, MV g2 (snd kv)) :: (x2, BB w) :: p) e2)) l) (ev_w p a)
        | _ => bad
        end
      else bad
  | _ => bad
  end.
Fixpoint write_block (p : scope) (l : list gx) : list N :=
  match l with
  | [YRet [e]] => ev_w p e
  | YSet (XId x) e :: l' => write_block (assign_var p x (BB (ev_w p e))) l'
  | _ => bad
  end.
End Write.
(** [(v *n) Encode(w)], with at most [fuel] nested calls of methods. *)
Fixpoint run_encode (bad : list N) (fuel : nat) (n : str) (v : val) (w : list N) : list N :=
  match fuel with
  | O => bad
  | S fuel' =>
      match method_decl n (tx "Encode") with
      | Some ([x], b) =>
          write_block bad (fun g u w => match g with GNamed m [] => run_encode bad fuel' m u w | _ => bad end)
            [(x, BB w); (tx "v", MV (GNamed n []) v)] b
      | _ => bad
      end
  end.

(** * Size *)
Section Size.
Variables (bad : nat) (call : gty -> val -> nat).
(** Expressions of type int. *)
Fixpoint ev_s (p : scope) (e : gx) {struct e} : nat :=
  match e with
  | XId x => match at_var p x with Some (II n) => n | _ => bad end
  | XFrom pk n [] => if str_eqb pk (tx "buf") && str_eqb n (tx "EndMarkerSize") then rt_end_size R else bad
  | XCall f args =>
      match f with
      | XFrom pk fn _ =>
          if str_eqb pk (tx "buf") then
            match args with
            | [b] => match ev_v p b with Some (_, v) => rt_size R fn v | None => bad end
            | [XNum id; XFun _ [] _ [YRet [e']]] => rt_size_field R fn id (ev_s p e')
            | [b; XFun _ [(y, g)] _ [YRet [e']]] =>
                match ev_v p b with
                | Some (_, VList l) => rt_size_seq R fn (map (fun v => ev_s ((y, MV g v) :: p) e') l)
                | Some (_, VSome v) => rt_size_option R fn (Some (ev_s ((y, MV g v) :: p) e'))
                | Some (_, VNone) => rt_size_option R fn None
                | _ => bad
                end
            | [XNum id; b; XFun _ [(y, g)] _ [YRet [e']]] =>
                match ev_v p b with
                | Some (_, VSome v) => rt_size_field_option R fn id (Some (ev_s ((y, MV g v) :: p) e'))
                | Some (_, VNone) => rt_size_field_option R fn id None
                | _ => bad
                end
            | _ => bad
            end
          else bad
      | XSel a m =>
          if str_eqb m (tx "Size") then
            match args with [] => match ev_v p a with Some (g, v) => call g v | None => bad end | _ => bad end
          else bad
      | _ => bad
      end
  | XCallLines (XFrom pk fn _) [b] [XFun _ [(y1, g1)] _ [YRet [e1]]; XFun _ [(y2, g2)] _ [YRet [e2]]] =>
      if str_eqb pk (tx "buf") then
        match ev_v p b with
        | Some (_, VMap l) => rt_size_map R fn (map (fun kv => (ev_s ((y1, MV g1 (fst kv)) :: p) e1, ev_s ((y2, MV g2 (snd kv)) :: p) e2)) l)
        | _ => bad
        end
      else bad
  | _ => bad
  end.
Fixpoint size_block (p : scope) (l : list gx) : nat :=
  match l with
  | [YRet [e]] => ev_s p e
  | YDef [x] (XNum n) :: l' => size_block ((x, II (N.to_nat n)) :: p) l'
  | YAdd (XId x) e :: l' =>
      match at_var p x with Some (II n) => size_block (assign_var p x (II (n + ev_s p e))) l' | _ => bad end
  | _ => bad
  end.
End Size.
Fixpoint run_size (bad : nat) (fuel : nat) (n : str) (v : val) : nat :=
  match fuel with
  | O => bad
  | S fuel' =>
      match method_decl n (tx "Size") with
      | Some ([], b) =>
          size_block bad (fun g u => match g with GNamed m [] => run_size bad fuel' m u | _ => bad end) [(tx "v", MV (GNamed n []) v)] b
      | _ => bad
      end
  end.

(** * Decode *)
Section Read.
Variable call : gty -> dec val.
Definition var_bytes (p : scope) (x : str) : option (list N) := match at_var p x with Some (BB b) => Some b | _ => None end.
(** Calls that return the remaining bytes, a value and an error. *)
Fixpoint ev_d (p : scope) (e : gx) {struct e} : res (val * list N) :=
  match e with
  | XCall (XFrom pk fn _) (XId x :: args) =>
      match str_eqb pk (tx "buf"), var_bytes p x with
      | true, Some r =>
          match args with
          | [] => rt_read R fn r
          | [XFun _ [(y, _)] _ [YRet [e']]] =>
              let d := fun r => ev_d ((y, BB r) :: p) e' in
              if str_eqb fn (tx "DecodeOption") then dmap Go.of_option (rt_read_option R fn d) r else dmap VList (rt_read_seq R fn d) r
          | _ => Panic
          end
      | _, _ => Panic
      end
  | XCallLines (XFrom pk fn _) [XId x] [XFun _ [(y1, _)] _ [YRet [e1]]; XFun _ [(y2, _)] _ [YRet [e2]]] =>
      match str_eqb pk (tx "buf"), var_bytes p x with
      | true, Some r => dmap VMap (rt_read_map R fn (fun r => ev_d ((y1, BB r) :: p) e1) (fun r => ev_d ((y2, BB r) :: p) e2)) r
      | _, _ => Panic
      end
  | XCallNl (XFun _ [(y, _)] _ [YVar z g; YRet [XCall (XSel (XId z') m) [XId y']]]) [XId x] =>
      match str_eqb z z' && str_eqb y y' && negb (str_eqb y z) && str_eqb m (tx "Decode"), var_bytes p x with
      | true, Some r => call g r
      | _, _ => Panic
      end
  | _ => Panic
  end.
(** How a statement ends: with the next one, with [break], with [return]. *)
Inductive flow := Next (p : scope) | Brk (p : scope) | Ret (p : scope) (l : list gv).
(** Leaving a block: its variables go out of scope. *)
Definition leave (p : scope) (f : flow) : flow :=
  let out p' := skipn (length p' - length p) p' in
  match f with Next p' => Next (out p') | Brk p' => Brk (out p') | Ret p' l => Ret p' l end.
(** Results of [return]. *)
Definition ev_r (p : scope) (e : gx) : option gv :=
  match e with
  | XId x => match at_var p x with Some v => Some v | None => if str_eqb x (tx "nil") then Some NIL else None end
  | XMissing id f => Some (ER (MissingField id (match f with [] => None | _ => Some f end)))
  | _ => None
  end.
Definition case_value (e : gx) : option N :=
  match e with
  | XNum n => Some n
  | XFrom pk n [] => if str_eqb pk (tx "buf") && str_eqb n (tx "EndMarker") then Some (rt_end R) else None
  | _ => None
  end.
(** The field [f] of the receiver [x] gets the value [u]. *)
Definition assign_field (p : scope) (x f : str) (u : val) : option scope :=
  match at_var p x with
  | Some (MV (GNamed n []) (VRec vs)) =>
      match struct_decl n with
      | Some fs =>
          match index_of f (map fst fs) with
          | Some k => Some (assign_var p x (MV (GNamed n []) (VRec (set_nth k u vs))))
          | None => None
          end
      | None => None
      end
  | _ => None
  end.
(** [fuel] bounds the number of iterations of each loop. *)
Section Fuel.
Variable fuel : nat.
Fixpoint exec (p : scope) (s : gx) {struct s} : res flow :=
  let block := fix block (p : scope) (l : list gx) {struct l} : res flow :=
    match l with
    | [] => Ok (Next p)
    | s :: l' => do f <- exec p s; match f with Next p' => block p' l' | f => Ok f end
    end in
  match s with
  | YBlank => Ok (Next p)
  | YBreak => Ok (Brk p)
  | YDef [x] (XId b) =>
      if str_eqb b (tx "false") then Ok (Next ((x, BL false) :: p)) else Panic
  | YDef [x; y; z] (XCall (XFrom pk fn targs) args) =>
      match (if str_eqb fn (tx "DecodeID") then
               match args with
               | [XId r] =>
                   match str_eqb pk (tx "buf"), var_bytes p r with
                   | true, Some b => do (id, b') <- rt_read_id R fn b; Ok (NN id, b')
                   | _, _ => Panic
                   end
               | _ => Panic
               end
             else do (v, b') <- ev_d p (XCall (XFrom pk fn targs) args); Ok (MV GEmpty v, b')) with
      | Ok (v, b') => Ok (Next ((x, BB b') :: (y, v) :: (z, NIL) :: p))
      | Err e => Ok (Next ((x, NIL) :: (y, NIL) :: (z, ER e) :: p))
      | Panic => Panic
      | Diverge => Diverge
      end
  | YDef [x; y; z] e =>
      match ev_d p e with
      | Ok (v, b') => Ok (Next ((x, BB b') :: (y, MV GEmpty v) :: (z, NIL) :: p))
      | Err e => Ok (Next ((x, NIL) :: (y, NIL) :: (z, ER e) :: p))
      | Panic => Panic
      | Diverge => Diverge
      end
  | YIf c body =>
      let cond := match c with
                  | XNe (XId a) (XId b) => if str_eqb b (tx "nil") then match at_var p a with Some NIL => Some false | Some _ => Some true | None => None end else None
                  | XNot (XId a) => match at_var p a with Some (BL b) => Some (negb b) | _ => None end
                  | _ => None
                  end in
      match cond with
      | Some true => do f <- block p body; Ok (leave p f)
      | Some false => Ok (Next p)
      | None => Panic
      end
  | YSet (XId x) (XId y) =>
      match at_var p x, (if str_eqb y (tx "true") then Some (BL true) else at_var p y) with
      | Some _, Some v => Ok (Next (assign_var p x v))
      | _, _ => Panic
      end
  | YSet (XSel (XId x) f) (XId y) =>
      match at_var p y with
      | Some (MV _ u) => match assign_field p x f u with Some p' => Ok (Next p') | None => Panic end
      | _ => Panic
      end
  | YFor (XGt0 (XCall (XId len) [XId x])) body =>
      if str_eqb len (tx "len") then
        (fix loop (k : nat) (p : scope) : res flow :=
           match var_bytes p x with
           | Some [] => Ok (Next p)
           | Some (_ :: _) =>
               match k with
               | O => Diverge
               | S k' =>
                   do f <- block p body;
                   match leave p f with
                   | Next p' => loop k' p'
                   | Brk p' => Ok (Next p')
                   | Ret p' l => Ok (Ret p' l)
                   end
               end
           | None => Panic
           end) fuel p
      else Panic
  | YSwitch (XId x) cases =>
      match at_var p x with
      | Some (NN id) =>
          (fix pick (cs : list (gx * list gx)) : res flow :=
             match cs with
             | [] => Ok (Next p)
             | (c, b) :: cs' =>
                 match case_value c with
                 | Some n =>
                     if n =? id then
                       do f <- block p b;
                       match leave p f with Brk p' => Ok (Next p') | f => Ok f end
                     else pick cs'
                 | None => Panic
                 end
             end) cases
      | _ => Panic
      end
  | YRet es =>
      match collect (map (ev_r p) es) with Some l => Ok (Ret p l) | None => Panic end
  | _ => Panic
  end.
Fixpoint exec_block (p : scope) (l : list gx) : res flow :=
  match l with
  | [] => Ok (Next p)
  | s :: l' => do f <- exec p s; match f with Next p' => exec_block p' l' | f => Ok f end
  end.
End Fuel.
End Read.
(** The fields of a new variable of a struct type. *)
Definition zero_of (n : str) : list val := match struct_decl n with Some fs => map (fun _ => VNone) fs | None => [] end.
(** [(v *n) Decode(r)], where [v] has the fields [vs]: the value of the receiver afterwards and the
    remaining bytes, or the error.  [fuel] bounds the nesting of methods and the iterations of each
    loop. *)
Fixpoint run_decode (fuel : nat) (n : str) (vs : list val) (r : list N) : res (val * list N) :=
  match fuel with
  | O => Diverge
  | S fuel' =>
      match method_decl n (tx "Decode") with
      | Some ([x], b) =>
          do f <- exec_block (fun g r => match g with GNamed m [] => run_decode fuel' m (zero_of m) r | _ => Panic end)
                    fuel [(x, BB r); (tx "v", MV (GNamed n []) (VRec vs))] b;
          match f with
          | Ret p [BB r'; NIL] => match at_var p (tx "v") with Some (MV _ v) => Ok (v, r') | _ => Panic end
          | Ret _ [_; ER e] => Err e
          | _ => Panic
          end
      | _ => Panic
      end
  end.
End Eval.

(** The same runtime as the parameter of [Go] and [GoSize], which know functions by type. *)
Definition rt_name (t : ty) : str :=
  match t with
  | TBool => tx "Bool" | TU8 => tx "U8" | TI8 => tx "I8"
  | TUInt W16 => tx "U16" | TUInt W32 => tx "U32" | TUInt W64 => tx "U64" | TUInt W128 => tx "U128"
  | TSInt W16 => tx "I16" | TSInt W32 => tx "I32" | TSInt W64 => tx "I64" | TSInt W128 => tx "I128"
  | TF32 => tx "F32" | TF64 => tx "F64"
  | TString | TStringRef | TBoxString => tx "String"
  | TBytes | TBytesRef | TBoxBytes => tx "Bytes"
  | _ => []
  end.
Definition seq_name (k : Go.seq_kind) : str :=
  match k with Go.SqVec => tx "Vec" | Go.SqSet => tx "HashSet" | Go.SqArray n => tx "Array" ++ dec_str (N.of_nat n) end.
Definition buf_of (R : runtime) : Go.go_buf :=
  Go.GoBuf (fun t => rt_write R (tx "Encode" ++ rt_name t)) (fun k => rt_write_seq R (tx "Encode" ++ seq_name k))
    (rt_write_map R (tx "EncodeHashMap")) (rt_write_option R (tx "EncodeOption")) (rt_write_field R (tx "EncodeField"))
    (rt_write_field_option R (tx "EncodeFieldOption")) (rt_end R) (rt_read_id R (tx "DecodeID"))
    (fun t => rt_read R (tx "Decode" ++ rt_name t)) (fun t => rt_read R (tx "DecodeNonZero" ++ rt_name t))
    (fun k => rt_read_seq R (tx "Decode" ++ seq_name k)) (fun k => rt_read_seq R (tx "DecodeNonZero" ++ seq_name k))
    (rt_read_map R (tx "DecodeHashMap")) (rt_read_map R (tx "DecodeNonZeroHashMap")) (rt_read_option R (tx "DecodeOption")).
Definition sizes_of (R : runtime) : GoSize.go_sizes :=
  GoSize.GoSizes (fun t => rt_size R (tx "Size" ++ rt_name t)) (fun k => rt_size_seq R (tx "Size" ++ seq_name k))
    (rt_size_map R (tx "SizeHashMap")) (rt_size_option R (tx "SizeOption")) (rt_size_field R (tx "SizeField"))
    (rt_size_field_option R (tx "SizeFieldOption")) (rt_end_size R).
