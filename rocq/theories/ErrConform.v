(** The parser with errors on the invalid schemas of the test suite: crates/mabo-parser/tests/parser.rs and the error reports recorded in
    tests/snapshots/parser__error@*.snap.  In each example: the labels of the reports around the cause, outermost first, then the innermost
    cause and its offset.  A label that ends before it starts is shown in the report with length 0. *)
From Verif Require Import Base Syntax Parser Lsp SpanParser ErrParser.
Require Coq.Strings.String.
Import Coq.Strings.String.StringSyntax.
Local Open Scope N_scope.

Definition reject (src : str) : option err :=
  match parse_reporting (F := unit) (fun _ => Some tt) src with Some (Rejected e) => Some e | _ => None end.
Definition nl : str := [10].

(** parser__error@alias_name.mabo.snap *)
Example err_alias_name : reject (tx "type sImple = Simple;" ++ nl) = Some (Err [Frame LyAlias (5, 5)] LyAlias CInvalidName 5).
Proof. vm_compute. reflexivity. Qed.
(** parser__error@alias_tuple_empty.mabo.snap *)
Example err_alias_tuple_empty : reject (tx "type Sample = ();" ++ nl)
  = Some (Err [Frame LyAlias (15, 15); Frame LyType (14, 15); Frame LyType (15, 15)] LyType CParser 15).
Proof. vm_compute. reflexivity. Qed.
(** parser__error@const_literal.mabo.snap *)
Example err_const_literal : reject (tx "const VALUE: u32 = 1z;" ++ nl) = Some (Err [Frame LyConst (0, 22)] LyConst (CUnexpectedChar 59) 20).
Proof. vm_compute. reflexivity. Qed.
(** parser__error@const_literal_bool.mabo.snap *)
Example err_const_literal_bool : reject (tx "const VALUE: bool = truze;" ++ nl)
  = Some (Err [Frame LyConst (0, 26); Frame LyLiteral (20, 20)] LyLiteral CParser 20).
Proof. vm_compute. reflexivity. Qed.
(** parser__error@const_literal_float.mabo.snap *)
Example err_const_literal_float : reject (tx "const VALUE: f64 = 1.0z;" ++ nl) = Some (Err [Frame LyConst (0, 24)] LyConst (CUnexpectedChar 59) 22).
Proof. vm_compute. reflexivity. Qed.
(** parser__error@const_name.mabo.snap *)
Example err_const_name : reject (tx "const vALUE: u32 = 1;" ++ nl) = Some (Err [Frame LyConst (0, 21)] LyConst CInvalidName 6).
Proof. vm_compute. reflexivity. Qed.
(** parser__error@enum_name.mabo.snap *)
Example err_enum_name : reject (tx "enum sample {" ++ nl ++ tx "    One @1," ++ nl ++ tx "}" ++ nl) = Some (Err [Frame LyEnum (5, 5)] LyEnum CInvalidName 5).
Proof. vm_compute. reflexivity. Qed.
(** parser__error@enum_named_tuple_empty.mabo.snap *)
Example err_enum_named_tuple_empty :
  reject (tx "enum Sample {" ++ nl ++ tx "    One @1," ++ nl ++ tx "    Two {" ++ nl ++ tx "        field: () @1," ++ nl ++ tx "    } @2," ++ nl ++ tx "}" ++ nl)
  = Some (Err [Frame LyEnum (52, 52); Frame LyFields (34, 23); Frame LyType (51, 52); Frame LyType (52, 52)] LyType CParser 52).
Proof. vm_compute. reflexivity. Qed.
(** parser__error@enum_unnamed_tuple_empty.mabo.snap *)
Example err_enum_unnamed_tuple_empty :
  reject (tx "enum Sample {" ++ nl ++ tx "    One @1," ++ nl ++ tx "    Two(() @1) @2," ++ nl ++ tx "}" ++ nl)
  = Some (Err [Frame LyEnum (35, 35); Frame LyFields (33, 11); Frame LyType (34, 35); Frame LyType (35, 35)] LyType CParser 35).
Proof. vm_compute. reflexivity. Qed.
(** parser__error@field_name.mabo.snap *)
Example err_field_name : reject (tx "struct Sample {" ++ nl ++ tx "    1value: u32 @1," ++ nl ++ tx "}" ++ nl)
  = Some (Err [Frame LyStruct (0, 37); Frame LyFields (14, 21)] LyFields CInvalidName 20).
Proof. vm_compute. reflexivity. Qed.
(** parser__error@mod_name.mabo.snap *)
Example err_mod_name : reject (tx "mod Sample {}" ++ nl) = Some (Err [Frame LyModule (0, 13)] LyModule CInvalidName 4).
Proof. vm_compute. reflexivity. Qed.
(** parser__error@struct_name.mabo.snap *)
Example err_struct_name : reject (tx "struct sample {" ++ nl ++ tx "    value: u32 @1," ++ nl ++ tx "}" ++ nl)
  = Some (Err [Frame LyStruct (0, 36)] LyStruct CInvalidName 7).
Proof. vm_compute. reflexivity. Qed.
(** parser__error@struct_named_tuple_empty.mabo.snap *)
Example err_struct_named_tuple_empty : reject (tx "struct Sample {" ++ nl ++ tx "    field: () @1," ++ nl ++ tx "}" ++ nl)
  = Some (Err [Frame LyStruct (0, 35); Frame LyFields (14, 19); Frame LyType (27, 28); Frame LyType (28, 28)] LyType CParser 28).
Proof. vm_compute. reflexivity. Qed.
(** parser__error@struct_unnamed_tuple_empty.mabo.snap *)
Example err_struct_unnamed_tuple_empty : reject (tx "struct Sample(() @1)" ++ nl)
  = Some (Err [Frame LyStruct (0, 21); Frame LyFields (13, 8); Frame LyType (14, 15); Frame LyType (15, 15)] LyType CParser 15).
Proof. vm_compute. reflexivity. Qed.
