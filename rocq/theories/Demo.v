(** A small schema used in the concrete instances that accompany the theorems. *)
From Verif Require Import Base Varint Wire Codec.
Local Open Scope N_scope.

(** struct Point { a: u8 @1, b: option<string> @2, c: vec<u32> @5 }
    enum Shape { Empty @1, Dot(Point @1) @2 }
    struct Unit
    struct Pair<T> { x: T @1, y: (u8, string) @2 }
    struct Tree { v: u16 @1, l: option<Tree> @2, m: hash_map<string, u64> @3 } *)
Definition demo : env :=
  [ DStruct (Fields KNamed [Field [97] 1 TU8; Field [98] 2 (TOption TString); Field [99] 5 (TVec (TUInt W32))]);
    DEnum [Variant 1 (Fields KUnit []); Variant 2 (Fields KUnnamed [Field [110; 48] 1 (TExt 0 [])])];
    DStruct (Fields KUnit []);
    DStruct (Fields KNamed [Field [120] 1 (TParam 0); Field [121] 2 (TTuple [TU8; TString])]);
    DStruct (Fields KNamed [Field [118] 1 (TUInt W16); Field [108] 2 (TOption (TExt 4 []));
                            Field [109] 3 (TMap TString (TUInt W64))]) ].

Definition demo_arity : list nat := [0; 0; 0; 1; 0]%nat.

Definition point : val := VRec [VInt 7; VSome (VBytes [104; 105]); VList [VInt 1; VInt 300]].
Definition shape : val := VVar 1 [point].
Definition tree : val :=
  VRec [VInt 1000; VSome (VRec [VInt 2; VNone; VMap []]); VMap [(VBytes [107], VInt 70000)]].
