(** Lemmas about lowered types. *)
From Verif Require Import Base Varint Wire Codec CodecSpec CodecProofs SchemaSpec Safety Syntax Compiler Lower.
Local Open Scope N_scope.

(** Induction over simplified types. *)
Section StyInd.
Variable P : sty -> Prop.
Hypothesis HPrim : forall p, P (SPrim p).
Hypothesis HVec : forall t, P t -> P (SVec t).
Hypothesis HMap : forall k v, P k -> P v -> P (SHashMap k v).
Hypothesis HSet : forall t, P t -> P (SHashSet t).
Hypothesis HOption : forall t, P t -> P (SOption t).
Hypothesis HNonZero : forall t, P t -> P (SNonZero t).
Hypothesis HTuple : forall ts, (forall t, In t ts -> P t) -> P (STuple ts).
Hypothesis HArray : forall t n, P t -> P (SArray t n).
Hypothesis HExt : forall path name ts, (forall t, In t ts -> P t) -> P (SExternal path name ts).
Fixpoint sty_ind2 (t : sty) : P t :=
  let all := fix all (l : list sty) : forall t, In t l -> P t :=
    match l return forall t, In t l -> P t with
    | [] => fun t H => match H with end
    | x :: l' => fun t H => match H with
                            | or_introl e => match e in _ = y return P y with eq_refl => sty_ind2 x end
                            | or_intror H' => all l' t H'
                            end
    end in
  match t with
  | SPrim p => HPrim p
  | SVec t => HVec t (sty_ind2 t)
  | SHashMap k v => HMap k v (sty_ind2 k) (sty_ind2 v)
  | SHashSet t => HSet t (sty_ind2 t)
  | SOption t => HOption t (sty_ind2 t)
  | SNonZero t => HNonZero t (sty_ind2 t)
  | STuple ts => HTuple ts (all ts)
  | SArray t n => HArray t n (sty_ind2 t)
  | SExternal path name ts => HExt path name ts (all ts)
  end.
End StyInd.

Lemma all_opt_forall2 {A B} (f : A -> option B) l : forall l', all_opt f l = Some l' <-> Forall2 (fun a b => f a = Some b) l l'.
Proof.
  induction l as [|a l IH]; intros l'; cbn [all_opt].
  - split; [intros H; injection H as <-; constructor|intros H; inversion H; reflexivity].
  - split.
    + destruct (f a) as [b|] eqn:E; [|discriminate]. destruct (all_opt f l) as [bs|]; [|discriminate].
      intros H. injection H as <-. constructor; [exact E|apply IH; reflexivity].
    + intros H. inversion H as [|? ? ? ? H1 H2]; subst. rewrite H1. apply IH in H2. rewrite H2. reflexivity.
Qed.
Lemma all_opt_total {A B} (f : A -> option B) l : (forall a, In a l -> f a <> None) -> exists l', all_opt f l = Some l'.
Proof.
  induction l as [|a l IH]; intros H; cbn [all_opt]; [exists []; reflexivity|].
  destruct (f a) as [b|] eqn:E; [|destruct (H a (or_introl eq_refl) E)].
  destruct IH as [l' ->]; [intros x Hx; apply H; right; exact Hx|]. exists (b :: l'). reflexivity.
Qed.
