(** How Rust reads the functions that mabo-build emits: the part of syn's expression grammar (syn 2.0.117, expr.rs, stmt.rs, pat.rs; the
    crate's source is not in the repository) in which the functions are written.  mabo-build calls it in lib.rs L199-209.

    Everything this reader accepts is read by syn in the same way; it accepts less than syn (simplifications: the body of a closure must be a
    block, the only binary operator is [+], only one kind of assignment, patterns and generic arguments as they occur).  Sums are read as lists
    (the order of additions is not recorded). *)
From Verif Require Import Base Syntax Parser Compiler RustFile.
From Verif Require RustTokens.
Require Coq.Strings.String.
Import Coq.Strings.String.StringSyntax.
Local Open Scope N_scope.

(** * Syntax trees *)
(** Patterns: [_], a literal, a path or name, a path with the names of fields in braces or in parentheses. *)
Inductive pat := PWild | PLit (s : str) | PName (path : list rt) | PFields (path : list rt) (d : dlm) (names : list str).
(** Expressions; a path is kept as its tokens. *)
Inductive rx :=
| XPath (p : list rt)
| XLit (s : str)
| XRef (e : rx) | XDeref (e : rx)
| XField (e : rx) (name : str)
| XMethod (e : rx) (m : str) (args : list rx)
| XCall (f : rx) (args : list rx)
| XTry (e : rx)
| XSum (es : list rx)
| XClosure (params : list str) (body : list xs)
| XBlock (body : list xs)
| XTuple (es : list rx)
| XStruct (path : list rt) (fields : list (str * option rx))
| XAssign (lhs rhs : rx)
| XMatch (scrut : rx) (arms : list (pat * rx))
| XLoop (body : list xs)
| XBreak
(** Statements: [let], an expression with a semicolon, one without, nothing but a semicolon. *)
with xs :=
| XLet (mutable : bool) (p : pat) (ty : option (list rt)) (e : rx)
| XSemi (e : rx)
| XTail (e : rx)
| XEmpty.

(** * Types and paths *)
(** Types are read by the reader of RustTokens.v, which does not look into literals. *)
Definition pn_of (s : str) : RustTokens.pn :=
  if str_eqb s [44] then RustTokens.PnComma
  else if str_eqb s [59] then RustTokens.PnSemi
  else if str_eqb s [58] then RustTokens.PnColon
  else if str_eqb s [58; 58] then RustTokens.PnPathSep
  else if str_eqb s [60] then RustTokens.PnLt
  else if str_eqb s [62] then RustTokens.PnGt
  else if str_eqb s [61] then RustTokens.PnEq
  else if str_eqb s [38] then RustTokens.PnAmp
  else if str_eqb s [45] then RustTokens.PnMinus
  else if str_eqb s [35] then RustTokens.PnHash
  else RustTokens.PnOther.
Fixpoint tt_of (t : rt) : RustTokens.tt :=
  match t with
  | W s => RustTokens.TId s
  | P s => if str_eqb s [95] then RustTokens.TId s else RustTokens.TP (pn_of s)
  | Q _ => RustTokens.TLit
  | G d l => RustTokens.TG (match d with Par => RustTokens.Paren | Brk => RustTokens.Bracket | Brc => RustTokens.Brace end) (map tt_of l)
  end.
Definition is_p (p : rt) (t : rt) : bool := match p, t with P s, P s' => str_eqb s s' | _, _ => false end.
Definition is_w (n : String.string) (t : rt) : bool := match t with W s => str_eqb s (tx n) | _ => false end.
Arguments is_w n%string_scope t.
(** All of the tokens are one type, or types separated by commas. *)
Definition one_type (ts : list rt) : bool :=
  let l := map tt_of ts in match RustTokens.p_ty (3 + RustTokens.tsizes l) l with Some [] => true | _ => false end.
Definition some_types (ts : list rt) : bool :=
  let l := map tt_of (ts ++ [gt]) in match RustTokens.until_gt (S (length l)) (RustTokens.p_ty (3 + RustTokens.tsizes l)) l with Some [] => true | _ => false end.
(** Up to the closing angle bracket. *)
Fixpoint angle_end (d : nat) (ts : list rt) : option (list rt * list rt) :=
  match ts with
  | [] => None
  | t :: r =>
      if is_p gt t then
        match d with
        | O => Some ([], r)
        | S d' => option_map (fun '(a, b) => (t :: a, b)) (angle_end d' r)
        end
      else option_map (fun '(a, b) => (t :: a, b)) (angle_end (if is_p lt t then S d else d) r)
  end.
(** path.rs: [a::b::<T>::c]; [n] bounds the number of segments. *)
Fixpoint p_segments (n : nat) (first : bool) (ts : list rt) : option (list rt * list rt) :=
  match n with
  | O => None
  | S n =>
      match ts with
      | W s :: r =>
          if RustTokens.segment_name first s then
            match r with
            | c :: r1 =>
                if is_p sep2 c then
                  match r1 with
                  | a :: r2 =>
                      if is_p lt a then
                        match angle_end 0 r2 with
                        | Some (args, r3) =>
                            if some_types args && RustTokens.takes_args s then
                              match r3 with
                              | c' :: r4 =>
                                  if is_p sep2 c' then
                                    option_map (fun '(p, r') => (W s :: c :: a :: args ++ gt :: c' :: p, r')) (p_segments n false r4)
                                  else Some (W s :: c :: a :: args ++ [gt], r3)
                              | [] => Some (W s :: c :: a :: args ++ [gt], [])
                              end
                            else None
                        | None => None
                        end
                      else option_map (fun '(p, r') => (W s :: c :: p, r')) (p_segments n false r1)
                  | [] => None
                  end
                else Some ([W s], r)
            | [] => Some ([W s], [])
            end
          else None
      | _ => None
      end
  end.
Definition p_path (ts : list rt) : option (list rt * list rt) :=
  match ts with
  | t :: r => if is_p sep2 t then option_map (fun '(p, r') => (t :: p, r')) (p_segments (length ts) false r) else p_segments (length ts) true ts
  | [] => None
  end.

(** Names separated by commas, up to the end. *)
Fixpoint p_names (ts : list rt) : option (list str) :=
  match ts with
  | [] => Some []
  | W s :: r =>
      if RustTokens.is_ident s then
        match r with
        | [] => Some [s]
        | c :: r' => if is_p comma c then option_map (cons s) (p_names r') else None
        end
      else None
  | _ => None
  end.
(** pat.rs. *)
Definition p_pat (ts : list rt) : option (pat * list rt) :=
  match ts with
  | Q s :: r => Some (PLit s, r)
  | t :: r =>
      if is_p (P [95]) t then Some (PWild, r)
      else match p_path ts with
           | Some (p, G Brk _ :: _) => None
           | Some (p, G d l :: r') => option_map (fun ns => (PFields p d ns, r')) (p_names l)
           | Some (p, r') => Some (PName p, r')
           | None => None
           end
  | [] => None
  end.
(** The parameters of a closure, up to the second bar. *)
Fixpoint p_params (ts : list rt) : option (list str * list rt) :=
  match ts with
  | W s :: c :: r =>
      if RustTokens.is_ident s then
        if is_p comma c then option_map (fun '(l, r') => (s :: l, r')) (p_params r)
        else if is_p bar c then Some ([s], r)
        else None
      else None
  | t :: r => if is_p bar t then Some ([], r) else None
  | _ => None
  end.

(** * Expressions *)
Section Level.
(** The readers for the contents of groups: expressions and blocks. *)
Variable E : list rt -> option (rx * list rt).
Variable B : list rt -> option (list xs).

(** Expressions separated by commas, up to the end; [n] bounds their number. *)
Fixpoint p_list (n : nat) (ts : list rt) : option (list rx) :=
  match n with
  | O => None
  | S n =>
      match ts with
      | [] => Some []
      | _ => match E ts with
             | Some (x, []) => Some [x]
             | Some (x, c :: r) => if is_p comma c then option_map (cons x) (p_list n r) else None
             | None => None
             end
      end
  end.
Definition p_args (l : list rt) : option (list rx) := p_list (S (length l)) l.
(** Fields of a struct expression. *)
Fixpoint p_inits (n : nat) (ts : list rt) : option (list (str * option rx)) :=
  match n with
  | O => None
  | S n =>
      match ts with
      | [] => Some []
      | W s :: r =>
          if RustTokens.is_ident s then
            match r with
            | [] => Some [(s, None)]
            | c :: r1 =>
                if is_p comma c then option_map (cons (s, None)) (p_inits n r1)
                else if is_p colon c then
                  match E r1 with
                  | Some (x, []) => Some [(s, Some x)]
                  | Some (x, c' :: r2) => if is_p comma c' then option_map (cons (s, Some x)) (p_inits n r2) else None
                  | None => None
                  end
                else None
            end
          else None
      | _ => None
      end
  end.
(** Postfix operators. *)
Fixpoint p_post (acc : rx) (ts : list rt) {struct ts} : option (rx * list rt) :=
  match ts with
  | G Par l :: r => match p_args l with Some xs => p_post (XCall acc xs) r | None => None end
  | G Brk _ :: _ => None
  | t :: r =>
      if is_p quest t then p_post (XTry acc) r
      else if is_p dot t then
        match r with
        | W m :: r1 =>
            if RustTokens.is_ident m then
              match r1 with
              | G Par l :: r2 => match p_args l with Some xs => p_post (XMethod acc m xs) r2 | None => None end
              | _ => p_post (XField acc m) r1
              end
            else None
        | Q n :: r1 => if forallb digit n then p_post (XField acc n) r1 else None
        | _ => None
        end
      else Some (acc, ts)
  | [] => Some (acc, [])
  end.
(** [structs]: braces behind a path belong to a struct expression (not in front of the arms of a match). *)
Definition p_atom (structs : bool) (ts : list rt) : option (rx * list rt) :=
  match ts with
  | Q s :: r => Some (XLit s, r)
  | G Par l :: r =>
      match p_args l with
      | Some [x] => Some (if is_p comma (last l comma) then XTuple [x] else x, r)
      | Some xs => Some (XTuple xs, r)
      | None => None
      end
  | G Brc l :: r => match B l with Some b => Some (XBlock b, r) | None => None end
  | t :: r =>
      if is_p bar t then
        match p_params r with
        | Some (ps, G Brc l :: r') => match B l with Some b => Some (XClosure ps b, r') | None => None end
        | _ => None
        end
      else
        match p_path ts with
        | Some (p, r') =>
            match structs, r' with
            | true, G Brc l :: r'' => option_map (fun fs => (XStruct p fs, r'')) (p_inits (S (length l)) l)
            | _, _ => Some (XPath p, r')
            end
        | None => None
        end
  | [] => None
  end.
(** Prefix operators. *)
Fixpoint p_unary (structs : bool) (ts : list rt) : option (rx * list rt) :=
  match ts with
  | t :: r =>
      if is_p amp t then option_map (fun '(x, r') => (XRef x, r')) (p_unary structs r)
      else if is_p star t then option_map (fun '(x, r') => (XDeref x, r')) (p_unary structs r)
      else match p_atom structs ts with Some (x, r') => p_post x r' | None => None end
  | [] => None
  end.
(** The terms of a sum; [n] bounds their number. *)
Fixpoint p_terms (n : nat) (ts : list rt) : option (list rx * list rt) :=
  match n with
  | O => None
  | S n =>
      match p_unary true ts with
      | Some (x, c :: r) => if is_p plus c then option_map (fun '(l, r') => (x :: l, r')) (p_terms n r) else Some ([x], c :: r)
      | Some (x, []) => Some ([x], [])
      | None => None
      end
  end.
Definition mk_sum (l : list rx) : rx := match l with [x] => x | _ => XSum l end.
Definition p_sum (ts : list rt) : option (rx * list rt) := option_map (fun '(l, r) => (mk_sum l, r)) (p_terms (S (length ts)) ts).
Definition p_full (ts : list rt) : option (rx * list rt) :=
  match ts with
  | t :: r =>
      if is_w "break" t then Some (XBreak, r)
      else match p_sum ts with
           | Some (x, c :: r') => if is_p equals c then option_map (fun '(y, r'') => (XAssign x y, r'')) (p_sum r') else Some (x, c :: r')
           | o => o
           end
  | [] => None
  end.

(** * Statements *)
(** Up to the equals sign. *)
Fixpoint upto_eq (ts : list rt) : option (list rt * list rt) :=
  match ts with
  | [] => None
  | t :: r => if is_p equals t then Some ([], r) else option_map (fun '(a, b) => (t :: a, b)) (upto_eq r)
  end.
(** Behind [let]. *)
Definition p_let (ts : list rt) : option (xs * list rt) :=
  let (m, ts) := match ts with t :: r => if is_w "mut" t then (true, r) else (false, ts) | [] => (false, []) end in
  match p_pat ts with
  | Some (p, c :: r) =>
      let rest ty r := match p_sum r with Some (x, s :: r') => if is_p semi s then Some (XLet m p ty x, r') else None | _ => None end in
      if is_p equals c then rest None r
      else if is_p colon c then match upto_eq r with Some (t, r') => if one_type t then rest (Some t) r' else None | None => None end
      else None
  | _ => None
  end.
(** The arms of a match, each but the last with a comma; a block is the whole of its arm. *)
Fixpoint p_arms (n : nat) (ts : list rt) : option (list (pat * rx)) :=
  match n with
  | O => None
  | S n =>
      match ts with
      | [] => Some []
      | _ => match p_pat ts with
             | Some (p, f :: r) =>
                 if is_p fat f then
                   match match r with G Brc l :: r' => option_map (fun b => (XBlock b, r')) (B l) | _ => p_full r end with
                   | Some (x, []) => Some [(p, x)]
                   | Some (x, c :: r') => if is_p comma c then option_map (cons (p, x)) (p_arms n r') else None
                   | None => None
                   end
                 else None
             | _ => None
             end
      end
  end.
End Level.

(** Expressions and blocks with groups nested up to [f]. *)
Section Block.
Variable E : list rt -> option (rx * list rt).
Variable B : list rt -> option (list xs).
Variable A : list rt -> option (list (pat * rx)).
Definition is_block (t : rt) : bool := match t with G Brc _ => true | _ => false end.
(** A block, a loop or a match at the start of a statement is the whole of the statement. *)
Fixpoint p_stmts (n : nat) (ts : list rt) : option (list xs) :=
  match n with
  | O => None
  | S n =>
      match ts with
      | [] => Some []
      | t :: r =>
          if is_p semi t then option_map (cons XEmpty) (p_stmts n r)
          else if is_block t then
            match t with G Brc l => match B l with Some b => option_map (cons (XTail (XBlock b))) (p_stmts n r) | None => None end | _ => None end
          else if is_w "let" t then match p_let E B r with Some (s, r') => option_map (cons s) (p_stmts n r') | None => None end
          else if is_w "loop" t then
            match r with
            | G Brc l :: r' => match B l with Some b => option_map (cons (XTail (XLoop b))) (p_stmts n r') | None => None end
            | _ => None
            end
          else if is_w "match" t then
            match p_unary E B false r with
            | Some (x, G Brc l :: r') => match A l with Some a => option_map (cons (XTail (XMatch x a))) (p_stmts n r') | None => None end
            | _ => None
            end
          else match p_full E B ts with
               | Some (x, []) => Some [XTail x]
               | Some (x, s :: r') => if is_p semi s then option_map (cons (XSemi x)) (p_stmts n r') else None
               | None => None
               end
      end
  end.
End Block.
Record level := Level { l_expr : list rt -> option (rx * list rt); l_block : list rt -> option (list xs); l_arms : list rt -> option (list (pat * rx)) }.
Fixpoint lvl (f : nat) : level :=
  match f with
  | O => Level (fun _ => None) (fun _ => None) (fun _ => None)
  | S f =>
      let L := lvl f in
      Level (p_full (l_expr L) (l_block L))
            (fun l => p_stmts (l_expr L) (l_block L) (l_arms L) (S (length l)) l)
            (fun l => p_arms (l_expr L) (l_block L) (S (length l)) l)
  end.
(** The number of tokens bounds the nesting. *)
Fixpoint rsize (t : rt) : nat := match t with G _ l => S (list_sum (map rsize l)) | _ => 1 end.
Definition rsizes (l : list rt) : nat := list_sum (map rsize l).
(** The body of a function. *)
Definition read_body (l : list rt) : option (list xs) := l_block (lvl (S (rsizes l))) l.

(** Precedence and the two readings of braces. *)
Example reads_get : read_body (q "a(&x.0.get(), *&y + z()?)") =
  Some [XTail (XCall (XPath [W (tx "a")]) [XRef (XMethod (XField (XPath [W (tx "x")]) (tx "0")) (tx "get") []);
     XSum [XDeref (XRef (XPath [W (tx "y")])); XTry (XCall (XPath [W (tx "z")]) [])]])].
Proof. vm_compute. reflexivity. Qed.
Example reads_match : read_body (q "loop { let id = f(r)?; match id.value { A::B => break, 1 => x = Some(g::<u8>(|r| { r })?), _ => S { y: z, }, } } Ok(x)") =
  Some [XTail (XLoop [XLet false (PName [W (tx "id")]) None (XTry (XCall (XPath [W (tx "f")]) [XPath [W (tx "r")]]));
     XTail (XMatch (XField (XPath [W (tx "id")]) (tx "value"))
       [(PName [W (tx "A"); sep2; W (tx "B")], XBreak);
        (PLit (tx "1"), XAssign (XPath [W (tx "x")]) (XCall (XPath [W (tx "Some")]) [XTry (XCall (XPath (q "g::<u8>")) [XClosure [tx "r"] [XTail (XPath [W (tx "r")])]])]));
        (PWild, XStruct [W (tx "S")] [(tx "y", Some (XPath [W (tx "z")]))])])]); XTail (XCall (XPath [W (tx "Ok")]) [XPath [W (tx "x")]])].
Proof. vm_compute. reflexivity. Qed.
