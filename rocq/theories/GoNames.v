(** Names in generated Go code (crates/mabo-go/src/definition.rs, encode.rs, decode.rs, size.rs).

    Names are changed by the crate heck (0.5.0, not part of the repository).  [words_of], [camel] and [lower_camel] follow
    its function [transform], restricted to ASCII, to which names of a schema are. *)
From Verif Require Import Base Syntax Parser Compiler.
Require Coq.Strings.String.
Import Coq.Strings.String.StringSyntax.
Local Open Scope N_scope.

Definition is_up (c : N) : bool := (65 <=? c) && (c <=? 90).
Definition is_low (c : N) : bool := (97 <=? c) && (c <=? 122).
Definition is_num (c : N) : bool := (48 <=? c) && (c <=? 57).
Definition is_alnum (c : N) : bool := is_up c || is_low c || is_num c.
Definition to_up (c : N) : N := if is_low c then c - 32 else c.
Definition to_low (c : N) : N := if is_up c then c + 32 else c.

(** [str::split] at characters that are neither letters nor digits. *)
Fixpoint pieces (s : str) : list str :=
  match s with
  | [] => [[]]
  | c :: s' =>
      match pieces s' with
      | p :: ps => if is_alnum c then (c :: p) :: ps else [] :: p :: ps
      | [] => [[c]]
      end
  end.
(** The inner loop of [transform]: the words of a piece.  [acc] is the current word backwards. *)
Inductive wmode := WBoundary | WLower | WUpper.
Definition next_mode (m : wmode) (c : N) : wmode := if is_low c then WLower else if is_up c then WUpper else m.
Definition is_wlower (m : wmode) : bool := match m with WLower => true | _ => false end.
Definition is_wupper (m : wmode) : bool := match m with WUpper => true | _ => false end.
Fixpoint words_of (acc : str) (m : wmode) (s : str) : list str :=
  match s with
  | [] => []
  | c :: s' =>
      match s' with
      | [] => [rev (c :: acc)]
      | n :: _ =>
          if is_wlower (next_mode m c) && is_up n then rev (c :: acc) :: words_of [] WBoundary s'
          else if is_wupper m && is_up c && is_low n then rev acc :: words_of [c] WBoundary s'
          else words_of (c :: acc) (next_mode m c) s'
      end
  end.
Definition heck_words (s : str) : list str := flat_map (words_of [] WBoundary) (pieces s).
Definition capitalize (w : str) : str := match w with [] => [] | c :: w' => to_up c :: map to_low w' end.
(** [heck::AsUpperCamelCase], [heck::AsLowerCamelCase]. *)
Definition camel (s : str) : str := concat (map capitalize (heck_words s)).
Definition lower_camel (s : str) : str :=
  match heck_words s with [] => [] | w :: ws => map to_low w ++ concat (map capitalize ws) end.

(** [heck::AsSnakeCase] (package names, definition.rs L116). *)
Fixpoint join_us (l : list str) : str :=
  match l with [] => [] | [w] => w | w :: l' => w ++ 95 :: join_us l' end.
Definition snake (s : str) : str := join_us (map (map to_low) (heck_words s)).

Section GoNames.
Context {F : Type}.
(** The names a definition declares in its package: definition.rs L131-149 [RenderStruct], L151-190 [RenderNewFunc],
    L577-660 [RenderEnum], [RenderEnumVariant], L360-376 [RenderAlias], L511-550 [RenderConst]; L36-56: a module is
    another package. *)
Definition go_decls (d : sdef F) : list str :=
  match d with
  | SStruct _ n _ _ => [camel n; tx "New" ++ camel n]
  | SEnum _ n _ vs =>
      [camel n ++ tx "Variant"; camel n] ++
      flat_map (fun v => [camel n ++ 95 :: camel (sv_name v); tx "New" ++ camel n ++ 95 :: camel (sv_name v)]) vs
  | SAlias _ n _ _ | SConst _ n _ _ => [camel n]
  | SModule _ _ _ | SImport _ _ => []
  end.
(** Fields and methods of a struct or of a variant: definition.rs L290-314 [RenderFields], encode.rs L26-35, L58-67,
    decode.rs L26-29, size.rs L26-35, definition.rs L639-648 ([sealed], variants only). *)
Definition go_members (fs : sfields) : list str :=
  map (fun f => camel (sf_name f)) (ss_fields fs) ++ [tx "Encode"; tx "Decode"; tx "Size"; tx "sealed"].
(** Parameters of the function [New...]: definition.rs L316-335 [RenderParameters]. *)
Definition go_params (fs : sfields) : list str := map (fun f => lower_camel (sf_name f)) (ss_fields fs).
End GoNames.

(** The words Go reserves. *)
Definition go_keywords : list str :=
  [tx "break"; tx "case"; tx "chan"; tx "const"; tx "continue"; tx "default"; tx "defer"; tx "else"; tx "fallthrough"; tx "for";
   tx "func"; tx "go"; tx "goto"; tx "if"; tx "import"; tx "interface"; tx "map"; tx "package"; tx "range"; tx "return"; tx "select";
   tx "struct"; tx "switch"; tx "type"; tx "var"].
