(** Specification of schema evolution: which changes between the writer's and the reader's
    definitions are allowed, and what the reader is expected to obtain.

    Definition number [i] of the writer's schema corresponds to definition number [i] of the
    reader's schema; fields and variants correspond by their ids. *)
From Verif Require Import Base Varint Wire Codec CodecSpec SchemaSpec.
Local Open Scope N_scope.

(** Types whose encoding starts with the number of bytes that follow. *)
Definition lenpfx (t : ty) : bool :=
  match t with
  | TString | TStringRef | TBoxString | TBytes | TBytesRef | TBoxBytes
  | TVec _ | TMap _ _ | TSet _ | TArray _ _ => true
  | _ => false
  end.

Definition node_flat_closed (D : list nat) (t : ty) : bool :=
  node_flat D t && match t with TParam _ => false | _ => true end.

(** Field types that an unaware reader can skip by their encoding class.  Not among them:
    structs, enums, generic parameters and nested options, which are labelled
    length-prefixed without carrying a length (C18). *)
Definition skippable (D : list nat) (t : ty) : bool :=
  match t with
  | TBool | TU8 | TI8 | TUInt _ | TSInt _ | TF32 | TF64 => true
  | TNonZero t' =>
      match t' with
      | TU8 | TI8 | TUInt _ | TSInt _ => true
      | _ => lenpfx t'
      end
  | TTuple ts => forallb (all_ty (node_flat_closed D)) ts
  | _ => lenpfx t
  end.

(** Allowed differences between the fields [fw] the writer knows and the fields [fr] the
    reader knows: fields may be added or removed, made optional or required, renamed and
    reordered; a field known to both keeps its payload type; a field unknown to the reader
    is skippable; a field-less definition stays field-less. *)
Definition fields_evolve (D : list nat) (fw fr : fields) : Prop :=
  (fs_kind fw = KUnit <-> fs_kind fr = KUnit)
  /\ forall g, In g (fs_list fw) ->
       (exists f, In f (fs_list fr) /\ f_id f = f_id g /\ payload_ty (f_ty f) = payload_ty (f_ty g))
       \/ ((forall f, In f (fs_list fr) -> f_id f <> f_id g)
           /\ skippable D (payload_ty (f_ty g)) = true).

(** Structs stay structs, enums stay enums (variants may be added and removed); the reader
    may have additional definitions. *)
Definition schema_evolves (D : list nat) (Ew Er : env) : Prop :=
  forall i,
    match nth_error Ew i, nth_error Er i with
    | Some (DStruct fw), Some (DStruct fr) => fields_evolve D fw fr
    | Some (DEnum vw), Some (DEnum vr) =>
        forall v w, In v vw -> In w vr -> v_id v = v_id w -> fields_evolve D (v_fields v) (v_fields w)
    | None, _ => True
    | _, _ => False
    end.

(** * What the reader obtains *)

(** All or nothing. *)
Fixpoint all_some {A} (l : list (option A)) : option (list A) :=
  match l with
  | [] => Some []
  | Some x :: l' => match all_some l' with Some xs => Some (x :: xs) | None => None end
  | None :: _ => None
  end.

Fixpoint assoc {A} (id : N) (l : list (N * A)) : option A :=
  match l with
  | [] => None
  | (i, a) :: l' => if i =? id then Some a else assoc id l'
  end.

(** The reader's fields, filled from what was sent: by id; an optional field that was not
    sent is [None]; a required one makes the whole value undefined. *)
Fixpoint received (fr : list field) (l : list (N * option val)) : option (list val) :=
  match fr with
  | [] => Some []
  | f :: fr' =>
      match (match assoc (f_id f) l with
             | Some (Some y) => match f_ty f with TOption _ => Some (VSome y) | _ => Some y end
             | Some None => None
             | None => match f_ty f with TOption _ => Some VNone | _ => None end
             end), received fr' l with
      | Some y, Some ys => Some (y :: ys)
      | _, _ => None
      end
  end.

Section Project.
Variables Ew Er : env.

Section Inner.
Variable pj : ty -> val -> option val.
(** The fields that are sent, by id, with their converted payloads. *)
Fixpoint sent (fs : list field) (vs : list val) {struct vs} : list (N * option val) :=
  match fs, vs with
  | f :: fs', v :: vs' =>
      match f_ty f with
      | TOption t => match v with
                     | VSome x => [(f_id f, pj t x)]
                     | _ => []
                     end
      | t => [(f_id f, pj t v)]
      end ++ sent fs' vs'
  | _, _ => []
  end.
Fixpoint seq_map (ts : list ty) (vs : list val) {struct vs} : list (option val) :=
  match ts, vs with
  | t :: ts', v :: vs' => pj t v :: seq_map ts' vs'
  | _, _ => []
  end.
End Inner.

(** The value of the reader's type that corresponds to [v]: converted everywhere inside; a
    variant the reader does not know has no counterpart.  Conversion may make elements of a
    set or keys of a map equal; the reader then keeps one element and the last value. *)
Fixpoint project (t : ty) (v : val) {struct v} : option val :=
  match core t, v with
  | (TVec t' | TArray t' _), VList l => option_map VList (all_some (map (project t') l))
  | TSet t', VList l => option_map (fun l => VList (set_of val_eqb l)) (all_some (map (project t') l))
  | TMap tk tv, VMap l =>
      option_map (fun l => VMap (map_of val_eqb l))
        (all_some (map (fun kv => match project tk (fst kv), project tv (snd kv) with
                                  | Some a, Some b => Some (a, b)
                                  | _, _ => None
                                  end) l))
  | TOption t', VSome x => option_map VSome (project t' x)
  | TTuple ts, VList l => option_map VList (all_some (seq_map project ts l))
  | TExt i args, VRec vs =>
      match nth_error Ew i, nth_error Er i with
      | Some (DStruct fw), Some (DStruct fr) =>
          option_map VRec (received (fs_list (inst args fr)) (sent project (fs_list (inst args fw)) vs))
      | _, _ => None
      end
  | TExt i args, VVar idx vs =>
      match nth_error Ew i, nth_error Er i with
      | Some (DEnum vw), Some (DEnum vr) =>
          match nth_error vw idx with
          | Some w =>
              match find_variant (v_id w) vr 0 with
              | Some (k, r) =>
                  option_map (VVar k)
                    (received (fs_list (inst args (v_fields r)))
                       (sent project (fs_list (inst args (v_fields w))) vs))
              | None => None
              end
          | None => None
          end
      | _, _ => None
      end
  | _, _ => Some v
  end.
End Project.

(** * Payloads as sequences of fields *)

(** One field on the wire: id, encoding class, payload bytes, and the value the payload
    stands for. *)
Record entry := Entry { e_id : N; e_class : fenc; e_bytes : list N; e_val : val }.

(** The bytes of a struct or variant body made of these fields. *)
Definition payload (es : list entry) : list N :=
  concat (map (fun e => encode_field (FieldId (e_id e) (e_class e)) (e_bytes e)) es)
  ++ encode_u32 END_MARKER.

(** The last value sent for an id. *)
Fixpoint last_value (id : N) (es : list entry) : option val :=
  match es with
  | [] => None
  | e :: es' =>
      match last_value id es' with
      | Some v => Some v
      | None => if e_id e =? id then Some (e_val e) else None
      end
  end.

(** What the reader makes of them: the last value per id, [None] for optional fields not
    sent, an error for the first (in declaration order) required field not sent. *)
Fixpoint collect (kind : fkind) (fr : list field) (es : list entry) : res (list val) :=
  match fr with
  | [] => Ok []
  | f :: fr' =>
      match f_ty f, last_value (f_id f) es with
      | TOption _, Some v => do vs <- collect kind fr' es; Ok (VSome v :: vs)
      | TOption _, None => do vs <- collect kind fr' es; Ok (VNone :: vs)
      | _, Some v => do vs <- collect kind fr' es; Ok (v :: vs)
      | _, None => Err (MissingField (f_id f) (match kind with KNamed => Some (f_name f) | _ => None end))
      end
  end.

(** * Definitions that did not change *)

(** Every definition mentioned in [t] is listed in [S]. *)
Definition refs_in (S : list nat) (t : ty) : bool :=
  all_ty (fun t => match t with TExt i _ => existsb (Nat.eqb i) S | _ => true end) t.

(** The definitions listed in [S] are the same for writer and reader and only refer to
    each other. *)
Definition unchanged (S : list nat) (Ew Er : env) : Prop :=
  forall i, In i S ->
    nth_error Ew i = nth_error Er i
    /\ forall d, nth_error Ew i = Some d -> forallb (refs_in S) (def_types d) = true.

(** Changes after which a reader understands everything a writer may send: every variant is
    known, and every required field of the reader is a required field of the writer. *)
Definition optional (f : field) : bool := match f_ty f with TOption _ => true | _ => false end.
Definition fields_total (fw fr : fields) : Prop :=
  forall f, In f (fs_list fr) -> optional f = false ->
    exists g, In g (fs_list fw) /\ f_id g = f_id f /\ optional g = false.
Definition schema_total (Ew Er : env) : Prop :=
  forall i,
    match nth_error Ew i, nth_error Er i with
    | Some (DStruct fw), Some (DStruct fr) => fields_total fw fr
    | Some (DEnum vw), Some (DEnum vr) =>
        forall v, In v vw -> exists w, In w vr /\ v_id w = v_id v /\ fields_total (v_fields v) (v_fields w)
    | None, _ => True
    | _, _ => False
    end.
