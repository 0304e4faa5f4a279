(** Whether rustc accepts the generated code (RustCode.v): the part of Rust's type system that
    the code needs.

    Modelled: references, auto-dereferencing of receivers and tuple projections, deref
    coercions of arguments, [+] on [usize] and [&usize], the signatures of the runtime
    (crates/mabo/src/buf/*.rs) with their trait bounds, the trait implementations of the
    standard library and of the runtime, the bounds of the generated implementations, lexical
    scope of variables.  Not modelled: lifetimes and borrows, visibility, lints, unification in
    general (every generic argument is fixed by the first argument or the expected type). *)
From Verif Require Import Base Varint Wire Codec Compiler RustCode RustEval.
Local Open Scope N_scope.

(** Rust types; [RBytesB] is [bytes::Bytes], [RNzInt] one of [std::num::NonZeroU8], ..,
    [RNonZero t] is [mabo::NonZero<t>]. *)
Inductive rty :=
| RS (s : scalar) | RUsize | RUnit
| RString | RStr | RBoxStr | RBoxBytes | RBytesB
| RVec (t : rty) | RSlice (t : rty) | RMap (k v : rty) | RSet (t : rty)
| ROption (t : rty) | RNzInt (s : scalar) | RNonZero (t : rty)
| RTuple (ts : list rty) | RArray (t : rty) (n : nat)
| RAdt (i : nat) (args : list rty) | RParam (i : nat)
| RRef (t : rty)
| RWriterT | RReaderT | RFieldIdT.

Definition width_eqb (a b : width) : bool :=
  match a, b with W16, W16 | W32, W32 | W64, W64 | W128, W128 => true | _, _ => false end.
Definition scalar_eqb (a b : scalar) : bool :=
  match a, b with
  | ScBool, ScBool | ScU8, ScU8 | ScI8, ScI8 | ScF32, ScF32 | ScF64, ScF64 => true
  | ScU v, ScU w | ScI v, ScI w => width_eqb v w
  | _, _ => false
  end.
Fixpoint rty_eqb (a b : rty) {struct a} : bool :=
  match a, b with
  | RS x, RS y | RNzInt x, RNzInt y => scalar_eqb x y
  | RUsize, RUsize | RUnit, RUnit | RString, RString | RStr, RStr | RBoxStr, RBoxStr
  | RBoxBytes, RBoxBytes | RBytesB, RBytesB | RWriterT, RWriterT | RReaderT, RReaderT
  | RFieldIdT, RFieldIdT => true
  | RVec x, RVec y | RSlice x, RSlice y | RSet x, RSet y | ROption x, ROption y
  | RNonZero x, RNonZero y | RRef x, RRef y => rty_eqb x y
  | RMap k v, RMap k' v' => rty_eqb k k' && rty_eqb v v'
  | RTuple x, RTuple y => list_eqb rty_eqb x y
  | RArray x n, RArray y m => rty_eqb x y && (n =? m)%nat
  | RAdt i x, RAdt j y => (i =? j)%nat && list_eqb rty_eqb x y
  | RParam i, RParam j => (i =? j)%nat
  | _, _ => false
  end.

(** mabo-build/src/definition.rs L259-351 [compile_data_type]; [None]: the generator panics. *)
Fixpoint rust_type (bt : bytes_type) (t : ty) : option rty :=
  match t with
  | TBool => Some (RS ScBool) | TU8 => Some (RS ScU8) | TI8 => Some (RS ScI8)
  | TUInt w => Some (RS (ScU w)) | TSInt w => Some (RS (ScI w))
  | TF32 => Some (RS ScF32) | TF64 => Some (RS ScF64)
  | TString | TStringRef => Some RString
  | TBytes | TBytesRef => Some (match bt with BVecU8 => RVec (RS ScU8) | BBytes => RBytesB end)
  | TBoxString => Some RBoxStr
  | TBoxBytes => Some RBoxBytes
  | TVec t' => option_map RVec (rust_type bt t')
  | TMap k v => let? k' := rust_type bt k in let? v' := rust_type bt v in Some (RMap k' v')
  | TSet t' => option_map RSet (rust_type bt t')
  | TOption t' => option_map ROption (rust_type bt t')
  | TNonZero t' =>
      match t' with
      | TU8 => Some (RNzInt ScU8) | TI8 => Some (RNzInt ScI8)
      | TUInt w => Some (RNzInt (ScU w)) | TSInt w => Some (RNzInt (ScI w))
      | TString | TStringRef | TBytes | TBytesRef | TVec _ | TMap _ _ | TSet _ =>
          option_map RNonZero (rust_type bt t')
      | _ => None
      end
  | TTuple ts => option_map RTuple (all_opt (rust_type bt) ts)
  | TArray t' n => option_map (fun t'' => RArray t'' n) (rust_type bt t')
  | TExt i args => option_map (RAdt i) (all_opt (rust_type bt) args)
  | TParam i => Some (RParam i)
  | TGen t' => rust_type bt t'
  end.

(** * Traits *)
Inductive trait := TrClone | TrDebug | TrPartialEq | TrHash (* Hash + Eq *) | TrSize | TrEncode | TrDecode.

Definition is_float (s : scalar) : bool := match s with ScF32 | ScF64 => true | _ => false end.

(** Standard library and bytes crate: [HashMap]/[HashSet] compare with [K: Eq + Hash] and are
    not hashable, floats are neither [Eq] nor [Hash].  mabo/src/buf/size.rs L148-295, encode.rs
    L198-352, decode.rs L512-645 and lib.rs L135-136 for the runtime's traits and [NonZero].
    The generated types derive [Clone, Debug, PartialEq] (definition.rs L99, L124), which bounds
    every parameter by the derived trait, and implement [Size], [Encode] and [Decode] under the
    bounds of size.rs L170-183, encode.rs L141-154, decode.rs L187-200.  [bd] are the bounds
    known for the parameters in scope. *)
Fixpoint impls (bd : trait -> bool) (tr : trait) (t : rty) {struct t} : bool :=
  match t with
  | RS s => match tr with TrHash => negb (is_float s) | _ => true end
  | RString | RBoxStr | RBoxBytes => true
  | RBytesB => match tr with TrSize | TrEncode | TrDecode => false | _ => true end
  | RVec t' | ROption t' => impls bd tr t'
  | RMap k v =>
      match tr with
      | TrHash => false
      | TrPartialEq => impls bd TrHash k && impls bd TrPartialEq v
      | TrDecode => impls bd TrHash k && impls bd TrDecode k && impls bd TrDecode v
      | _ => impls bd tr k && impls bd tr v
      end
  | RSet t' =>
      match tr with
      | TrHash => false
      | TrPartialEq => impls bd TrHash t'
      | TrDecode => impls bd TrHash t' && impls bd TrDecode t'
      | _ => impls bd tr t'
      end
  | RNzInt _ => match tr with TrSize | TrEncode | TrDecode => false | _ => true end
  | RNonZero t' => match tr with TrHash | TrDecode => false | _ => impls bd tr t' end
  | RTuple ts => match tr with TrSize | TrEncode | TrDecode => false | _ => forallb (impls bd tr) ts end
  | RArray t' _ =>
      match tr with TrDecode => impls bd TrDebug t' && impls bd TrDecode t' | _ => impls bd tr t' end
  | RAdt _ args =>
      match tr with
      | TrHash => false
      | TrEncode => forallb (fun a => impls bd TrEncode a && impls bd TrSize a) args
      | TrDecode => forallb (fun a => impls bd TrDebug a && impls bd TrDecode a) args
      | _ => forallb (impls bd tr) args
      end
  | RParam _ => bd tr
  | _ => false
  end.

(** The bounds on the parameters inside [#[derive(..)]] and the three implementations. *)
Definition derive_bounds (d : trait) : trait -> bool := fun tr =>
  match d, tr with TrClone, TrClone | TrDebug, TrDebug | TrPartialEq, TrPartialEq => true | _, _ => false end.
Definition size_bounds : trait -> bool := fun tr => match tr with TrSize => true | _ => false end.
Definition encode_bounds : trait -> bool := fun tr => match tr with TrEncode | TrSize => true | _ => false end.
Definition decode_bounds : trait -> bool := fun tr => match tr with TrDebug | TrDecode => true | _ => false end.

(** * Expressions *)

(** Auto-dereferencing: the type itself, what [*] gives, and so on. *)
Fixpoint steps (t : rty) : list rty :=
  t :: match t with
       | RRef t' | RNonZero t' => steps t'
       | RString | RBoxStr => [RStr]
       | RVec t' => [RSlice t']
       | RBoxBytes | RBytesB => [RSlice (RS ScU8)]
       | _ => []
       end.
Fixpoint first {A} (p : rty -> option A) (l : list rty) : option A :=
  match l with
  | [] => None
  | t :: l' => match p t with Some a => Some a | None => first p l' end
  end.
(** An argument for a parameter of type [&X]. *)
Definition coerce {A} (p : rty -> option A) (t : rty) : option A :=
  match t with RRef t' => first p (steps t') | _ => None end.

Definition as_str (t : rty) : option unit := match t with RStr => Some tt | _ => None end.
Definition as_byte_slice (t : rty) : option unit := match t with RSlice (RS ScU8) => Some tt | _ => None end.
Definition as_bytes (t : rty) : option unit := match t with RBytesB => Some tt | _ => None end.
Definition as_slice (t : rty) : option rty := match t with RSlice t' => Some t' | _ => None end.
Definition as_map (t : rty) : option (rty * rty) := match t with RMap k v => Some (k, v) | _ => None end.
Definition as_set (t : rty) : option rty := match t with RSet t' => Some t' | _ => None end.
Definition as_option (t : rty) : option rty := match t with ROption t' => Some t' | _ => None end.
Definition as_array (t : rty) : option rty := match t with RArray t' _ => Some t' | _ => None end.
Definition as_tuple (t : rty) : option (list rty) := match t with RTuple ts => Some ts | _ => None end.
Definition as_nominal (t : rty) : option rty := match t with RAdt _ _ | RParam _ => Some t | _ => None end.
(** [NonZeroU8::get(self) -> u8], lib.rs L143 [NonZero::get(&self) -> &T]. *)
Definition as_non_zero (t : rty) : option rty :=
  match t with RNzInt s => Some (RS s) | RNonZero t' => Some (RRef t') | _ => None end.

(** [usize + usize], [&usize + usize], [usize + &usize], [&usize + &usize]. *)
Definition is_usize (t : rty) : bool := match t with RUsize | RRef RUsize => true | _ => false end.

Definition ctx := list (ident * rty).

Definition guard {A} (b : bool) (a : option A) : option A := if b then a else None.
Definition is_some {A} (o : option A) : bool := match o with Some _ => true | None => false end.
Definition has_type (o : option rty) (t : rty) : bool := match o with Some t' => rty_eqb t' t | None => false end.

Section Typing.
Variable bt : bytes_type.
(** Bounds on the type parameters. *)
Variable bd : trait -> bool.

Definition is_writer (g : ctx) (e : expr) : bool :=
  match e with EVar x => match find_var x g with Some RWriterT => true | _ => false end | _ => false end.
Definition is_reader (g : ctx) (e : expr) : bool :=
  match e with EVar x => match find_var x g with Some RReaderT => true | _ => false end | _ => false end.

(** A trait method called on a receiver. *)
Definition method (tr : trait) (t : ty) (recv : option rty) (res : rty) : option rty :=
  let? r := recv in
  let? n := first as_nominal (steps r) in
  guard (has_type (rust_type bt t) n && impls bd tr n) (Some res).

Fixpoint tc (g : ctx) (e : expr) {struct e} : option rty :=
  match e with
  | EVar x => find_var x g
  | ERef e => option_map RRef (tc g e)
  | EDeref e => match tc g e with Some (RRef t) => Some t | _ => None end
  | EProj i e => let? t := tc g e in let? ts := first as_tuple (steps t) in nth_error ts i
  | EGet e => let? t := tc g e in first as_non_zero (steps t)
  | EAsRef e => let? t := tc g e in let? t' := first as_option (steps t) in Some (ROption (RRef t'))
  | ESizeM t e => method TrSize t (tc g e) RUsize
  | EEncodeM t e w => guard (is_writer g w) (method TrEncode t (tc g e) RUnit)
  | EInt _ => Some RUsize
  | EEndMarker => Some (RS (ScU W32))
  | EEndSize => Some RUsize
  | ESum es =>
      match es with
      | [e] => tc g e
      | _ => guard (forallb (fun e => match tc g e with Some t => is_usize t | None => false end) es) (Some RUsize)
      end
  | ESeq es => guard (forallb (fun e => is_some (tc g e)) es) (Some RUnit)
  | ECall f args =>
      match f, args with
      | RSize s, [e] => guard (has_type (tc g e) (RS s)) (Some RUsize)
      | RSizeString, [e] => let? t := tc g e in guard (is_some (coerce as_str t)) (Some RUsize)
      | RSizeBytes BVecU8, [e] => let? t := tc g e in guard (is_some (coerce as_byte_slice t)) (Some RUsize)
      | RSizeBytes BBytes, [e] => let? t := tc g e in guard (is_some (coerce as_bytes t)) (Some RUsize)
      | RSizeVec, [e; EClos [x] b] =>
          let? t := tc g e in let? t' := coerce as_slice t in
          guard (has_type (tc ((x, RRef t') :: g) b) RUsize) (Some RUsize)
      | RSizeSet, [e; EClos [x] b] =>
          let? t := tc g e in let? t' := coerce as_set t in
          guard (has_type (tc ((x, RRef t') :: g) b) RUsize) (Some RUsize)
      | RSizeArray, [e; EClos [x] b] =>
          let? t := tc g e in let? t' := coerce as_array t in
          guard (has_type (tc ((x, RRef t') :: g) b) RUsize) (Some RUsize)
      | RSizeMap, [e; EClos [x] bk; EClos [y] bv] =>
          let? t := tc g e in let? (k, v) := coerce as_map t in
          guard (has_type (tc ((x, RRef k) :: g) bk) RUsize && has_type (tc ((y, RRef v) :: g) bv) RUsize) (Some RUsize)
      | RSizeOption, [e; EClos [x] b] =>
          match tc g e with
          | Some (ROption (RRef t')) => guard (has_type (tc ((x, RRef t') :: g) b) RUsize) (Some RUsize)
          | _ => None
          end
      | RSizeField, [EInt _; EClos [] b] => guard (has_type (tc g b) RUsize) (Some RUsize)
      | RSizeFieldOption, [EInt _; e; EClos [x] b] =>
          match tc g e with
          | Some (ROption (RRef t')) => guard (has_type (tc ((x, RRef t') :: g) b) RUsize) (Some RUsize)
          | _ => None
          end
      | RSizeVariantId, [EInt _] => Some RUsize
      | REncode s, [w; e] => guard (is_writer g w && has_type (tc g e) (RS s)) (Some RUnit)
      | REncodeString, [w; e] =>
          let? t := tc g e in guard (is_writer g w && is_some (coerce as_str t)) (Some RUnit)
      | REncodeBytes BVecU8, [w; e] =>
          let? t := tc g e in guard (is_writer g w && is_some (coerce as_byte_slice t)) (Some RUnit)
      | REncodeBytes BBytes, [w; e] =>
          let? t := tc g e in guard (is_writer g w && is_some (coerce as_bytes t)) (Some RUnit)
      | REncodeVec, [w; e; EClos [x] s; EClos [y; z] b] =>
          let? t := tc g e in let? t' := coerce as_slice t in
          guard (is_writer g w && has_type (tc ((x, RRef t') :: g) s) RUsize
                 && has_type (tc ((z, RRef t') :: (y, RWriterT) :: g) b) RUnit) (Some RUnit)
      | REncodeSet, [w; e; EClos [x] s; EClos [y; z] b] =>
          let? t := tc g e in let? t' := coerce as_set t in
          guard (is_writer g w && has_type (tc ((x, RRef t') :: g) s) RUsize
                 && has_type (tc ((z, RRef t') :: (y, RWriterT) :: g) b) RUnit) (Some RUnit)
      | REncodeArray, [w; e; EClos [x] s; EClos [y; z] b] =>
          let? t := tc g e in let? t' := coerce as_array t in
          guard (is_writer g w && has_type (tc ((x, RRef t') :: g) s) RUsize
                 && has_type (tc ((z, RRef t') :: (y, RWriterT) :: g) b) RUnit) (Some RUnit)
      | REncodeMap, [w; e; EClos [xk] sk; EClos [xv] sv; EClos [yk; zk] bk; EClos [yv; zv] bv] =>
          let? t := tc g e in let? (k, v) := coerce as_map t in
          guard (is_writer g w
                 && has_type (tc ((xk, RRef k) :: g) sk) RUsize && has_type (tc ((xv, RRef v) :: g) sv) RUsize
                 && has_type (tc ((zk, RRef k) :: (yk, RWriterT) :: g) bk) RUnit
                 && has_type (tc ((zv, RRef v) :: (yv, RWriterT) :: g) bv) RUnit) (Some RUnit)
      | REncodeOption, [w; e; EClos [y; z] b] =>
          let? t := tc g e in let? t' := coerce as_option t in
          guard (is_writer g w && has_type (tc ((z, RRef t') :: (y, RWriterT) :: g) b) RUnit) (Some RUnit)
      | REncodeTuple, [w; EClos [] s; EClos [y] b] =>
          guard (is_writer g w && has_type (tc g s) RUsize && has_type (tc ((y, RWriterT) :: g) b) RUnit) (Some RUnit)
      | REncodeField, [w; EFieldId _ _; EClos [y] b] =>
          guard (is_writer g w && has_type (tc ((y, RWriterT) :: g) b) RUnit) (Some RUnit)
      | REncodeFieldOption, [w; EFieldId _ _; e; EClos [y; z] b] =>
          let? t := tc g e in let? t' := coerce as_option t in
          guard (is_writer g w && has_type (tc ((z, RRef t') :: (y, RWriterT) :: g) b) RUnit) (Some RUnit)
      | REncodeVariantId, [w; EVariantId _] => guard (is_writer g w) (Some RUnit)
      | _, _ => None
      end
  | _ => None
  end.

(** [e] is a [Result<t>]. *)
Fixpoint dtc (g : ctx) (e : expr) (t : rty) {struct e} : bool :=
  match e with
  | EDecodeM t0 r => is_reader g r && has_type (rust_type bt t0) t && impls bd TrDecode t
  | ETupleOk len es =>
      match len with Some e => dtc g e (RS (ScU W64)) | None => true end
      && match t with
         | RTuple ts =>
             (fix go (es : list expr) (ts : list rty) {struct es} : bool :=
                match es, ts with
                | [], [] => true
                | e :: es', t :: ts' => dtc g e t && go es' ts'
                | _, _ => false
                end) es ts
         | _ => false
         end
  | ECall f args =>
      match f, args, t with
      | RDecode s, [r], RS s' => is_reader g r && scalar_eqb s s'
      | RDecodeString, [r], RString => is_reader g r
      | RDecodeBytes BVecU8, [r], RVec (RS ScU8) => is_reader g r
      | RDecodeBytes BBytes, [r], RBytesB => is_reader g r
      | RDecodeVec, [r; EClos [x] b], RVec t' => is_reader g r && dtc ((x, RReaderT) :: g) b t'
      | RDecodeMap, [r; EClos [x] bk; EClos [y] bv], RMap k v =>
          is_reader g r && impls bd TrHash k && dtc ((x, RReaderT) :: g) bk k && dtc ((y, RReaderT) :: g) bv v
      | RDecodeSet, [r; EClos [x] b], RSet t' => is_reader g r && impls bd TrHash t' && dtc ((x, RReaderT) :: g) b t'
      | RDecodeOption, [r; EClos [x] b], ROption t' => is_reader g r && dtc ((x, RReaderT) :: g) b t'
      | RDecodeArray n, [r; EClos [x] b], RArray t' m =>
          is_reader g r && (n =? m)%nat && impls bd TrDebug t' && dtc ((x, RReaderT) :: g) b t'
      | RDecodeNz s, [r], RNzInt s' => is_reader g r && scalar_eqb s s'
      | RDecodeNzString, [r], RNonZero RString => is_reader g r
      | RDecodeNzBytes BVecU8, [r], RNonZero (RVec (RS ScU8)) => is_reader g r
      | RDecodeNzBytes BBytes, [r], RNonZero RBytesB => is_reader g r
      | RDecodeNzVec, [r; EClos [x] b], RNonZero (RVec t') => is_reader g r && dtc ((x, RReaderT) :: g) b t'
      | RDecodeNzMap, [r; EClos [x] bk; EClos [y] bv], RNonZero (RMap k v) =>
          is_reader g r && impls bd TrHash k && dtc ((x, RReaderT) :: g) bk k && dtc ((y, RReaderT) :: g) bv v
      | RDecodeNzSet, [r; EClos [x] b], RNonZero (RSet t') =>
          is_reader g r && impls bd TrHash t' && dtc ((x, RReaderT) :: g) b t'
      | _, _, _ => false
      end
  | _ => false
  end.

(** Declared variables, innermost first. *)
Definition declared (vars : list (ident * ty)) (g : ctx) : option ctx :=
  fold_left (fun o '(x, t) => let? g := o in let? t' := rust_type bt t in Some ((x, t') :: g)) vars (Some g).

(** The function body [b] of [decode], which builds the fields [ts]. *)
Definition dbody_ok (b : dbody) (g : ctx) (ts : list rty) : bool :=
  match b with
  | DUnit => match ts with [] => true | _ => false end
  | DLoop l =>
      match declared (d_vars l) g with
      | None => false
      | Some g1 =>
          let g2 := (d_id l, RFieldIdT) :: g1 in
          match d_next l with ECall RDecodeId [r] => is_reader g1 r | _ => false end
          && forallb (fun '(_, x, e) =>
               match find_var x g2 with Some (ROption t) => dtc g2 e t | _ => false end) (d_arms l)
          && match d_skip l with
             | ECall RDecodeSkip [r; EEncodingOf (EVar y)] =>
                 is_reader g2 r && match find_var y g2 with Some RFieldIdT => true | _ => false end
             | _ => false
             end
          && list_eqb rty_eqb
               (map (fun '(x, req) => match find_var x g1, req with
                                      | Some (ROption t), Some _ => t
                                      | Some (ROption t), None => ROption t
                                      | _, _ => RUnit
                                      end) (d_build l)) ts
      end
  end.
End Typing.

(** * Definitions *)
Section Items.
Variable bt : bytes_type.

Definition field_types (fs : fields) : option (list rty) :=
  match fs_kind fs with KUnit => Some [] | _ => all_opt (fun f => rust_type bt (f_ty f)) (fs_list fs) end.
Definition bodies (d : def) : list fields :=
  match d with DStruct fs => [fs] | DEnum vs => map v_fields vs end.

(** definition.rs L80-103, L105-128: the type itself with its derives; a pattern or a struct
    with two fields of the same name is an error. *)
Definition derives_ok (fs : fields) : bool :=
  match field_types fs with
  | None => false
  | Some ts =>
      forallb (fun d => forallb (impls (derive_bounds d) d) ts) [TrClone; TrDebug; TrPartialEq]
      && (fix nodup (l : list ident) : bool :=
            match l with [] => true | x :: l' => negb (existsb (list_eqb N.eqb x) l') && nodup l' end)
           (names_of_fields fs)
  end.
(** [let Self { names } = self] binds references. *)
Definition bound (a : arm) (fs : fields) : option ctx :=
  option_map (fun ts => combine (a_names a) (map RRef ts)) (field_types fs).
Fixpoint forall2b {A B} (p : A -> B -> bool) (l : list A) (m : list B) : bool :=
  match l, m with
  | [], [] => true
  | a :: l', b :: m' => p a b && forall2b p l' m'
  | _, _ => false
  end.

Definition size_fn_ok (d : def) : bool :=
  forall2b (fun a fs => match bound a fs with
                        | Some g => has_type (tc bt size_bounds g (a_body a)) RUsize
                        | None => false
                        end) (gen_size_def bt d) (bodies d).
Definition encode_fn_ok (d : def) : bool :=
  forall2b (fun a fs => match bound a fs with
                        | Some g => has_type (tc bt encode_bounds (g ++ [(x_w, RWriterT)]) (a_body a)) RUnit
                        | None => false
                        end) (gen_encode_def bt d) (bodies d).
Definition decode_fn_ok (d : def) : bool :=
  let g := [(x_r, RReaderT)] in
  let body_ok b fs := match field_types fs with Some ts => dbody_ok bt decode_bounds b g ts | None => false end in
  match gen_decode_def bt d with
  | DfStruct b => forall2b body_ok [b] (bodies d)
  | DfEnum (ECall RDecodeVariantId [r]) arms => is_reader g r && forall2b body_ok (map snd arms) (bodies d)
  | DfEnum _ _ => false
  end.

(** The code generated for a definition type checks. *)
Definition type_checks (d : def) : bool :=
  forallb derives_ok (bodies d) && size_fn_ok d && encode_fn_ok d && decode_fn_ok d.
End Items.
