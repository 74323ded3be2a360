(** Operations on bit vectors, described on lists of booleans. *)
From Coq Require Import ZArith Bool List.
From Verif.Model Require Import Base CS Bellpepper Util.
From Verif.Spec Require Import Spec.
Import ListNotations.
Local Open Scope Z_scope.

(** One call of a [Bitvector] method.  The booleans beside the arguments are the values that the
    arguments stand for. *)
Inductive vec_op :=
| OpReversed
| OpTruncate (n : nat)
| OpShl (i : nat)
| OpShr (i : nat)
| OpPush (x : bit) (v : bool)
| OpInsert (i : nat) (x : bit) (v : bool)
| OpAppend (other : bitvector) (ovs : list bool)
| OpPop.

(** What the call does to the list of booleans; [None]: out of range. *)
Definition spec_op (op : vec_op) (vs : list bool) : option (list bool) :=
  match op with
  | OpReversed => Some (rev vs)
  | OpTruncate n => Some (firstn n vs)
  | OpShl i => Some (repeat false i ++ vs)
  | OpShr i => if (i <=? length vs)%nat then Some (skipn i vs) else None
  | OpPush _ v => Some (vs ++ [v])
  | OpInsert i _ v =>
      if (i <=? length vs)%nat then Some (firstn i vs ++ v :: skipn i vs) else None
  | OpAppend _ ovs => Some (vs ++ ovs)
  | OpPop => Some (removelast vs)
  end.
Fixpoint spec_ops (ops : list vec_op) (vs : list bool) : option (list bool) :=
  match ops with
  | [] => Some vs
  | op :: ops => match spec_op op vs with Some vs => spec_ops ops vs | None => None end
  end.

Section SpecBits.
Context {E : Env}.

(** The call itself. *)
Definition bv_op (op : vec_op) (b : bitvector) : res bitvector :=
  match op with
  | OpReversed => Ok (bv_reversed b)
  | OpTruncate n => Ok (bv_truncate n b)
  | OpShl i => Ok (bv_shl i b)
  | OpShr i => bv_shr i b
  | OpPush x _ => Ok (bv_push x b)
  | OpInsert i x _ => bv_insert i x b
  | OpAppend other _ => Ok (bv_append b other)
  | OpPop => rmap snd (bv_pop b)
  end.
Fixpoint bv_ops (ops : list vec_op) (b : bitvector) : res bitvector :=
  match ops with
  | [] => Ok b
  | op :: ops => rbind (bv_op op b) (bv_ops ops)
  end.

(** The recorded values are [vs] and the wires evaluate to them. *)
Definition aligned (rho : assignment) (b : bitvector) (vs : list bool) : Prop :=
  bv_vals b = Some vs /\ Forall2 (fun l v => feval rho l = Z.b2z v) (bv_bits b) vs.
Definition bit_for (rho : assignment) (x : bit) (v : bool) : Prop :=
  b_val x = Some v /\ feval rho (b_lc x) = Z.b2z v.
Definition op_ok (rho : assignment) (op : vec_op) : Prop :=
  match op with
  | OpPush x v | OpInsert _ x v => bit_for rho x v
  | OpAppend other ovs => aligned rho other ovs
  | _ => True
  end.

End SpecBits.
