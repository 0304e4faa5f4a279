(** How Rust reads a generated file: the part of syn's item grammar (syn 2.0.117, file.rs, item.rs, generics.rs, attr.rs; the crate's source is
    not in the repository) in which mabo-build writes files, with the [impl] blocks, whose methods RustRead.v reads.  mabo-build calls it in
    lib.rs L199-209.

    The other items are read by RustTokens.v.  Like RustRead.v this reader accepts less than syn (simplifications: an [impl] block has one method,
    the bounds of type parameters stand behind [where], attributes have one of three forms). *)
From Verif Require Import Base Syntax Parser Compiler RustFile RustRead.
From Verif Require RustTokens.
Require Coq.Strings.String.
Import Coq.Strings.String.StringSyntax.
Local Open Scope N_scope.

Definition bind {A B} (o : option A) (f : A -> option B) : option B := match o with Some a => f a | None => None end.
(** A reader of RustTokens.v. *)
Definition via (p : list RustTokens.tt -> option (list RustTokens.tt)) (ts : list rt) : option (list rt) :=
  option_map (fun r => skipn (length ts - length r) ts) (p (map tt_of ts)).
(** Types; the number of tokens bounds the nesting. *)
Definition types (ts : list rt) : list RustTokens.tt -> option (list RustTokens.tt) := RustTokens.p_ty (3 + RustTokens.tsizes (map tt_of ts)).
Definition p_type (ts : list rt) : option (list rt) := via (types ts) ts.
(** A path. *)
Definition p_type_path (ts : list rt) : option (list rt) :=
  match ts with
  | W _ :: _ => p_type ts
  | P s :: _ => if str_eqb s [58; 58] then p_type ts else None
  | _ => None
  end.
(** attr.rs: [#[name]], [#[name(..)]], [#[name = ".."]]. *)
Definition meta (l : list rt) : bool := match l with [W _] | [W _; G Par _] => true | [W _; P s; Q _] => str_eqb s [61] | _ => false end.
Fixpoint strip_attrs (ts : list rt) : list rt :=
  match ts with
  | P s :: (G Brk l :: r) => if str_eqb s [35] && meta l then strip_attrs r else ts
  | _ => ts
  end.

(** * impl blocks: item.rs [ItemImpl] *)
(** generics.rs: [path + path]. *)
Fixpoint p_bounds (n : nat) (ts : list rt) : option (list rt) :=
  match n with
  | O => None
  | S n => bind (p_type_path ts) (fun r => match r with P s :: r' => if str_eqb s [43] then p_bounds n r' else Some r | _ => Some r end)
  end.
(** generics.rs [WhereClause]: [type: bounds], separated by commas, up to the opening brace. *)
Fixpoint p_predicates (n : nat) (ts : list rt) : option (list rt) :=
  match n with
  | O => None
  | S n =>
      match ts with
      | G Brc _ :: _ => Some ts
      | _ => bind (p_type_path ts) (fun r =>
               match r with
               | P s :: r => if str_eqb s [58] then
                               bind (p_bounds (S (length r)) r) (fun r => match r with P s :: r' => if str_eqb s [44] then p_predicates n r' else None | _ => Some r end)
                             else None
               | _ => None
               end)
      end
  end.
Definition p_where (ts : list rt) : option (list rt) :=
  match ts with W k :: r => if str_eqb k (tx "where") then p_predicates (S (length r)) r else None | _ => Some ts end.
(** Types of arguments: [impl] and references in addition. *)
Definition p_arg_type (ts : list rt) : option (list rt) :=
  let ts := match ts with P s :: r => if str_eqb s [38] then match r with W m :: r' => if str_eqb m (tx "mut") then r' else r | _ => r end else ts | _ => ts end in
  match ts with W k :: r => if str_eqb k (tx "impl") then p_type_path r else p_type ts | _ => p_type ts end.
Fixpoint p_typed (n : nat) (ts : list rt) : bool :=
  match n with
  | O => false
  | S n =>
      match ts with
      | [] => true
      | W x :: P c :: r =>
          RustTokens.is_ident x && str_eqb c [58]
          && match p_arg_type r with Some [] => true | Some (P s :: r') => str_eqb s [44] && p_typed n r' | _ => false end
      | _ => false
      end
  end.
(** item.rs [Receiver], [FnArg]. *)
Definition p_fn_args (ts : list rt) : bool :=
  match ts with
  | P a :: W s :: r =>
      str_eqb a [38] && str_eqb s (tx "self")
      && match r with [] => true | P c :: r' => str_eqb c [44] && p_typed (S (length r')) r' | _ => false end
  | _ => p_typed (S (length ts)) ts
  end.
(** The block of an [impl] with one method; [body] reads its statements. *)
Definition p_method (body : list rt -> bool) (ts : list rt) : bool :=
  match strip_attrs ts with
  | W k :: W n :: G Par args :: r =>
      str_eqb k (tx "fn") && RustTokens.is_ident n && p_fn_args args
      && match r with
         | [G Brc b] => body b
         | P a :: r' => str_eqb a [45; 62] && match p_type r' with Some [G Brc b] => body b | _ => false end
         | _ => false
         end
  | _ => false
  end.
Definition p_impl (body : list rt -> bool) (ts : list rt) : option (list rt) :=
  bind (via RustTokens.p_generics ts) (fun r =>
  bind (p_type_path r) (fun r =>
  match r with
  | W k :: r => if str_eqb k (tx "for") then
      bind (p_type r) (fun r =>
      bind (p_where r) (fun r => match r with G Brc l :: r' => if p_method body l then Some r' else None | _ => None end)) else None
  | _ => None
  end)).

(** * Items *)
Definition reads_body (l : list rt) : bool := match read_body l with Some _ => true | None => false end.
Definition p_item (items : list rt -> bool) (ts : list rt) : option (list rt) :=
  let ts := strip_attrs ts in
  match ts with
  | W k :: r => if str_eqb k (tx "impl") then p_impl reads_body r else
      match (if str_eqb k (tx "pub") then r else ts) with
      | W k :: r =>
          if str_eqb k (tx "mod") then
            match r with W n :: G Brc l :: r' => if RustTokens.mod_name n && items l then Some r' else None | _ => None end
          else if str_eqb k (tx "struct") then via (RustTokens.p_struct (types r)) r
          else if str_eqb k (tx "enum") then via (RustTokens.p_enum (types r)) r
          else if str_eqb k (tx "type") then via (RustTokens.p_alias (types r)) r
          else if str_eqb k (tx "const") then via (RustTokens.p_const (types r)) r
          else if str_eqb k (tx "use") then via RustTokens.p_import r
          else None
      | _ => None
      end
  | _ => None
  end.
Fixpoint p_repeated (n : nat) (p : list rt -> option (list rt)) (ts : list rt) : bool :=
  match n with
  | O => false
  | S n => match ts with [] => true | _ => match p ts with Some r => p_repeated n p r | None => false end end
  end.
(** [f] bounds the nesting of modules. *)
Fixpoint p_items (f : nat) (ts : list rt) : bool :=
  match f with
  | O => false
  | S f => p_repeated (S (length ts)) (p_item (p_items f)) ts
  end.
(** A file. *)
Definition file_parses (ts : list rt) : bool := p_items (S (rsizes ts)) ts.

Example file_read : file_parses (q "#[a(b)] pub mod c { #[allow(d)] use ::e::{F, G}; } struct H<T,>(pub Vec<T>, u8,); #[x] impl<T,> ::a::B for H<T,> where T: ::a::B + ::a::C, { fn d(&self, w: &mut impl ::a::D) -> ::b::R<Self> { self.x() } }") = true
  /\ file_parses (q "struct type { }") = false /\ file_parses (q "impl A for B { fn c(&self) { match } }") = false.
Proof. vm_compute. auto. Qed.
