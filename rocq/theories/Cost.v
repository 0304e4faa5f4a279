(** The work done by the schema parser (crates/mabo-parser/src/parser.rs, parser/*.rs): Parser.v again,
    counting how often [types::parse] (parser/types.rs L49-68) is called.

    Every function is the one of the same name in Parser.v, with the count added up along all attempts,
    including those that are given up.  [CostProofs.v] proves that the results are the same.
    Parsers that never call [types::parse] are taken from Parser.v ([free]). *)
From Verif Require Import Base Syntax Parser.
Require Coq.Strings.String.
Import Coq.Strings.String.StringSyntax.
Local Open Scope N_scope.

(** Result and number of calls. *)
Definition cparser (A : Type) := str -> pres A * N.

(** A parser that makes no call. *)
Definition free {A} (p : parser A) : cparser A := fun i => (p i, 0).
Definition cret {A} (a : A) : cparser A := free (pret a).
Definition cbind {A B} (p : cparser A) (f : A -> cparser B) : cparser B := fun i =>
  match p i with
  | (POk a r, n) => let (x, m) := f a r in (x, n + m)
  | (PBack, n) => (PBack, n)
  | (PCut, n) => (PCut, n)
  | (PBug, n) => (PBug, n)
  | (PFuel, n) => (PFuel, n)
  end.
Notation "'cdo' x <- p ; q" := (cbind p (fun x => q)) (at level 200, x pattern, p at level 100, q at level 200).
Definition cmap {A B} (f : A -> B) (p : cparser A) : cparser B := cdo a <- p; cret (f a).
(** winnow [cut_err], [alt], [opt], [repeat(0.., p)]. *)
Definition ccut {A} (p : cparser A) : cparser A := fun i =>
  let (x, n) := p i in (match x with PBack => PCut | x => x end, n).
Definition calt {A} (p q : cparser A) : cparser A := fun i =>
  match p i with (PBack, n) => let (y, m) := q i in (y, n + m) | x => x end.
Definition copt {A} (p : cparser A) : cparser (option A) := fun i =>
  let (x, n) := p i in
  (match x with POk a r => POk (Some a) r | PBack => POk None i | PCut => PCut | PBug => PBug | PFuel => PFuel end, n).
Fixpoint crepeat_loop {A} (fuel : nat) (p : cparser A) (i : str) : pres (list A) * N :=
  match fuel with
  | O => (PFuel, 0)
  | S k =>
      match p i with
      | (POk a r, n) =>
          if (length r =? length i)%nat then (PBug, n)
          else let (x, m) := crepeat_loop k p r in
               (match x with POk l r' => POk (a :: l) r' | e => e end, n + m)
      | (PBack, n) => (POk [] i, n)
      | (PCut, n) => (PCut, n)
      | (PBug, n) => (PBug, n)
      | (PFuel, n) => (PFuel, n)
      end
  end.
Definition crepeat0 {A} (p : cparser A) : cparser (list A) := fun i => crepeat_loop (S (length i)) p i.
(** parser.rs L208-217 [ws]. *)
Definition cws {A} (p : cparser A) : cparser A := cdo _ <- free multispace0; p.
(** parser.rs L219-270 [punctuate]. *)
Fixpoint cpunct_loop {A} (fuel : nat) (f : cparser A) (g : cparser (A * bool))
    (acc : list A) (prev : option str) (i : str) : pres (punct A) * N :=
  match fuel with
  | O => (PFuel, 0)
  | S k =>
      match f i with
      | (POk a r, n) =>
          if (length r =? length i)%nat then (PBug, n)
          else let (x, m) := cpunct_loop k f g (acc ++ [a]) (Some i) r in (x, n + m)
      | (PBack, n) =>
          match g i with
          | (POk (a, t) r, m) => (POk (Punct acc a t) r, n + m)
          | (PBack, m) =>
              match prev with
              | Some s => let (x, l) := g s in
                          (match x with
                           | POk (a, t) r => POk (Punct (removelast acc) a t) r
                           | PBack => PBack | PCut => PCut | PBug => PBug | PFuel => PFuel
                           end, n + m + l)
              | None => (PBack, n + m)
              end
          | (PCut, m) => (PCut, n + m)
          | (PBug, m) => (PBug, n + m)
          | (PFuel, m) => (PFuel, n + m)
          end
      | (PCut, n) => (PCut, n)
      | (PBug, n) => (PBug, n)
      | (PFuel, n) => (PFuel, n)
      end
  end.
Definition cpunctuated {A} (e : cparser A) : cparser (punct A) := fun i =>
  cpunct_loop (S (length i))
    (cdo a <- e; cdo _ <- free (ws comma); cret a)
    (cdo a <- e; cdo t <- free (opt (ws comma)); cret (a, match t with Some _ => true | None => false end)) [] None i.
(** parser.rs L272-287 [surround]. *)
Definition csurround {A} (open close : N) (p : cparser A) : cparser A :=
  cdo _ <- free (char open); ccut (cdo a <- p; cdo _ <- free (ws (char close)); cret a).

(** * Types: parser/types.rs *)

(** L103-111 [parse_single], L116-128 [parse_pair], L99-162 [parse_generic]. *)
Definition cparse_single (mk : pty -> pty) (p : cparser pty) : cparser pty := ccut (cmap mk (csurround 60 62 p)).
Definition cparse_pair (p : cparser pty) : cparser pty :=
  ccut (csurround 60 62 (cdo k <- p; cdo _ <- free (space0 ;; comma ;; space0); cdo v <- p; cret (PHashMap k v))).
Definition cparse_generic (p : cparser pty) : cparser pty :=
  cdo k <- free (take_while 3 generic_char);
  if str_eqb k (tx "vec") then cparse_single PVec p
  else if str_eqb k (tx "hash_map") then cparse_pair p
  else if str_eqb k (tx "hash_set") then cparse_single PHashSet p
  else if str_eqb k (tx "option") then cparse_single POption p
  else if str_eqb k (tx "non_zero") then cparse_single PNonZero p
  else free pfail.
(** L164-174 [parse_tuple], L176-189 [parse_array], L191-220 [parse_external]. *)
Definition cparse_tuple (p : cparser pty) : cparser pty := cmap PTuple (csurround 40 41 (cpunctuated (cws p))).
Definition cparse_array (p : cparser pty) : cparser pty :=
  csurround 91 93 (cdo t <- cws p; cdo _ <- free (ws (char 59)); cdo n <- free (ws (dec_uint (2 ^ 32 - 1))); cret (PArray t n)).
Definition cparse_external (p : cparser pty) : cparser pty :=
  cdo path <- free (opt (repeat1 (pdo s <- lower_name; tag (tx "::") ;; pret s)));
  cdo name <- free external_name;
  cdo gs <- copt (csurround 60 62 (cpunctuated (cws p)));
  cret (PExternal (match path with Some l => l | None => [] end) name gs).
(** L49-68 [parse]: one call. *)
Fixpoint cparse_type (fuel : nat) (i : str) : pres pty * N :=
  match fuel with
  | O => (PFuel, 0)
  | S n =>
     let (x, m) := (calt (free parse_basic)
                   (calt (cparse_generic (cparse_type n))
                   (calt (cparse_tuple (cparse_type n))
                   (calt (cparse_array (cparse_type n))
                         (cparse_external (cparse_type n)))))) i in
     (x, 1 + m)
  end.
Definition cptype : cparser pty := fun i => cparse_type (S (length i)) i.

(** * Fields and definitions *)

(** parser/fields.rs L116-150, L74-114. *)
Definition cparse_unnamed_field : cparser ufield :=
  cdo t <- cws cptype; cdo i <- free (opt (space0 ;; parse_id)); cret (UField t i).
Definition cparse_named_field : cparser nfield :=
  cdo c <- free (ws comments); cdo n <- free (space0 ;; lower_name); cdo _ <- free (space0 ;; char 58 ;; space0);
  cdo t <- cptype; cdo i <- free (opt (space0 ;; parse_id)); cret (NField c n t i).
Definition cparse_fields : cparser pfields :=
  cdo c <- free peek_any;
  if c =? 123 then cmap FNamed (csurround 123 125 (cpunctuated cparse_named_field))
  else if c =? 40 then cmap FUnnamed (csurround 40 41 (cpunctuated cparse_unnamed_field))
  else cret FUnit.
(** parser/enums.rs L138-156. *)
Definition cparse_variant : cparser pvariant :=
  cdo c <- free (ws comments); cdo n <- free (space0 ;; type_name); cdo _ <- free space0;
  cdo fs <- cparse_fields; cdo i <- free (opt (space0 ;; parse_id)); cret (PVariant c n fs i).

Section Lit.
Context {F : Type}.
Variable parse_f64 : str -> option F.

(** parser/structs.rs L69-95, parser/enums.rs L88-113, parser/aliases.rs L65-94, parser/consts.rs
    L78-112, parser/modules.rs L62-89. *)
Definition cparse_struct : cparser (pdef F) :=
  cdo _ <- free (tag (tx "struct") ;; space1);
  ccut (cdo n <- free type_name; cdo g <- free (opt parse_generics); cdo _ <- free space0; cdo fs <- cparse_fields;
        cret (PStruct [] [] n g fs)).
Definition cparse_enum : cparser (pdef F) :=
  cdo _ <- free (tag (tx "enum") ;; space1);
  ccut (cdo n <- free type_name; cdo g <- free (opt parse_generics); cdo _ <- free space0;
        cdo vs <- csurround 123 125 (cpunctuated cparse_variant);
        cret (PEnum [] [] n g vs)).
Definition cparse_alias : cparser (pdef F) :=
  cdo _ <- free (tag (tx "type") ;; space1);
  ccut (cdo n <- free type_name; cdo g <- free (opt parse_generics); cdo _ <- free (space0 ;; char 61 ;; space0);
        cdo t <- cptype; cdo _ <- free (space0 ;; char 59); cret (PAlias [] n g t)).
Definition cparse_const : cparser (pdef F) :=
  cdo _ <- free (tag (tx "const") ;; space1);
  ccut (cdo n <- free const_name; cdo _ <- free (char 58 ;; space0); cdo t <- cptype;
        cdo _ <- free (space0 ;; char 61 ;; space0); cdo v <- free (parse_literal parse_f64); cdo _ <- free (char 59); cret (PConst [] n t v)).
Definition cparse_module (d : cparser (pdef F)) : cparser (pdef F) :=
  cdo _ <- free (tag (tx "mod") ;; space1);
  ccut (cdo n <- free lower_name; cdo _ <- free space0; cdo l <- csurround 123 125 (crepeat0 (cws d));
        cret (PModule [] n l)).
(** parser.rs L76-96 [parse_definition], L51-74 [parse_schema]. *)
Fixpoint cparse_definition (fuel : nat) (i : str) : pres (pdef F) * N :=
  match fuel with
  | O => (PFuel, 0)
  | S n =>
     (cdo c <- free (ws comments); cdo a <- free (ws (attributes parse_f64)); cdo _ <- free space0;
      cdo d <- (cdo k <- free peek_any;
                if k =? 109 then cparse_module (cparse_definition n)
                else if k =? 115 then cparse_struct
                else if k =? 101 then cparse_enum
                else if k =? 99 then cparse_const
                else if k =? 116 then cparse_alias
                else if k =? 117 then free (parse_import (F := F))
                else free pfail);
      cret (with_attributes a (with_comment c d))) i
  end.
Definition cpdefinition : cparser (pdef F) := fun i => cparse_definition (S (length i)) i.
Definition cparse_schema : cparser (pschema F) :=
  cdo c <- free (opt (pdo c <- ws comments; char 10 ;; pret c));
  cdo ds <- crepeat0 cpdefinition; cdo _ <- free multispace0;
  cret (PSchema (match c with Some c => c | None => [] end) ds).
(** lib.rs L160-172 [Schema::parse]. *)
Definition schema_calls (i : str) : N := snd (cparse_schema i).
End Lit.
