(** When a Go runtime ([go_buf]) follows the Rust runtime's conventions, and for which field
    types the two generators can agree.  Used in the hypotheses of the theorems on the Go back end. *)
From Verif Require Import Base Varint Wire Codec Go.
Local Open Scope N_scope.

(** A callback that appends [b]. *)
Definition appends (c : writer) (b : list N) : Prop := forall w, c w = w ++ b.

Definition no_ext : nat -> list ty -> dec val := fun _ _ _ => Panic.

(** The runtime reads the wire format like the Rust runtime does. *)
Record reads_like_rust (R : go_buf) : Prop := ReadsLikeRust {
  rl_id : forall r, gd_id R r = do (f, r') <- decode_id r; Ok (fid_value f, r');
  rl_prim : forall t, go_prim t = true -> gd_prim R t = dec_ty no_ext false t;
  rl_nz_prim : forall t, go_prim t = true -> go_nz t = true ->
    gd_non_zero_prim R t = dec_ty no_ext false (TNonZero t);
  rl_vec : gd_seq R SqVec = decode_vec;
  rl_set : gd_seq R SqSet = decode_hash_set val_eqb;
  rl_array : forall n, gd_seq R (SqArray n) = decode_array n;
  rl_map : gd_map R = decode_hash_map val_eqb;
  rl_nz_vec : gd_non_zero_seq R SqVec = decode_non_zero_vec;
  rl_nz_set : gd_non_zero_seq R SqSet = decode_non_zero_hash_set val_eqb;
  rl_nz_map : gd_non_zero_map R = decode_non_zero_hash_map val_eqb;
  rl_option : gd_option R = decode_option
}.

(** The runtime writes payloads like the Rust runtime does (field ids are not mentioned). *)
Record writes_like_rust (R : go_buf) : Prop := WritesLikeRust {
  wl_end : gb_end R = END_MARKER;
  wl_prim : forall t v, go_prim t = true -> gb_prim R t v = encode [] false t v;
  wl_seq : forall k cs bs, Forall2 appends cs bs ->
    appends (gb_seq R k cs) (encode_u64 (lenN (concat bs)) ++ concat bs);
  wl_map : forall cs bs, Forall2 (fun c b => appends (fst c) (fst b) /\ appends (snd c) (snd b)) cs bs ->
    appends (gb_map R cs)
      (encode_u64 (lenN (concat (map (fun b => fst b ++ snd b) bs))) ++ concat (map (fun b => fst b ++ snd b) bs));
  wl_some : forall c b, appends c b -> appends (gb_option R (Some c)) (1 :: b);
  wl_none : appends (gb_option R None) [0]
}.

(** Types the two back ends treat alike inside a field: no reference, no type parameter, no tuple. *)
Fixpoint plain (t : ty) : bool :=
  match t with
  | TVec t' | TSet t' | TArray t' _ | TOption t' => plain t'
  | TMap k v => plain k && plain v
  | TNonZero t' => go_nz t' && plain t'
  | TTuple _ | TExt _ _ | TParam _ | TGen _ => false
  | _ => true
  end.

(** ... and the field itself is not optional. *)
Definition plain_field (t : ty) : bool := match t with TOption _ => false | _ => plain t end.
