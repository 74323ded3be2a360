(** C97: operands outside the domain of an operation. *)
From Coq Require Import ZArith Bool List.
From Verif.Model Require Import Base Fields CS Bellpepper Util Poly Bignat.
From Verif.Spec Require Import Spec.
From Verif.Proofs Require Import Prime OutOfRange.
Import ListNotations.
Local Open Scope Z_scope.

(** [nat_to_limbs] does not refuse negative numbers: it gives the limbs of their residue. *)
Theorem C97_split_signed : forall (E : Env) (W : Wf E) v w n, (w < NUM_BITS)%nat ->
  (Z.abs v < 2 ^ Z.of_nat (w * n) -> exists ls, nat_to_limbs v w n = Ok ls /\ length ls = n /\
     Forall (fun d => 0 <= d < 2 ^ Z.of_nat w) ls /\ value_of (2 ^ Z.of_nat w) ls = v mod 2 ^ Z.of_nat (w * n)) /\
  (2 ^ Z.of_nat (w * n) <= Z.abs v -> nat_to_limbs v w n = Err Unsatisfiable).
Proof. exact @top_split_signed. Qed.
Print Assumptions C97_split_signed.

(** So an allocated negative number records itself as value and its residue in the limbs. *)
Theorem C97_alloc_signed : forall (E : Env) (W : Wf E) v w n s, good s -> (1 <= n)%nat -> (w < NUM_BITS)%nat ->
  (Z.abs v < 2 ^ Z.of_nat (w * n) -> exists b s' vs, run true (alloc_from_nat (Ok v) w n) s = (Ok b, s') /\ good s' /\
     value b = Some v /\ limb_values b = Some vs /\ Forall2 (carries s') (limbs b) vs /\ length vs = n /\
     Forall (fun d => 0 <= d < 2 ^ Z.of_nat w) vs /\ value_of (2 ^ Z.of_nat w) vs = v mod 2 ^ Z.of_nat (w * n)) /\
  (2 ^ Z.of_nat (w * n) <= Z.abs v -> run true (alloc_from_nat (Ok v) w n) s = (Err IoError, s)).
Proof. exact @top_alloc_signed. Qed.
Print Assumptions C97_alloc_signed.

(** Subtracting a larger number does not fail: the difference records a negative value and wrapped limbs, and the
    circuit is left unsatisfied.  It is satisfied exactly if the second operand is at most the first. *)
Theorem C97_sub_verdict : forall (E : Env) (W : Wf E) a b A B s,
  let w := limb_width (bparams a) in
  let X := 2 ^ Z.of_nat w in
  let v := value_of X A - value_of X B in
  good s -> bignat_at s a A -> bignat_at s b B -> limb_width (bparams b) = w ->
  (1 <= w)%nat -> (w < NUM_BITS)%nat -> (1 <= length B <= length A)%nat ->
  Z.abs v < 2 ^ Z.of_nat (w * length A) ->
  group_no_wrap (Z.max (max_word (bparams a)) (max_word (bparams b) + (X - 1))) w ->
  group_room (Z.max (max_word (bparams a)) (max_word (bparams b) + (X - 1))) w ->
  exists d s' D, run true (sub a b) s = (Ok d, s') /\ value d = Some v /\
    limb_values d = Some D /\ Forall2 (carries s') (limbs d) D /\ length D = length A /\
    Forall (fun x => 0 <= x < X) D /\ value_of X D = v mod 2 ^ Z.of_nat (w * length A) /\
    (good s' <-> value_of X B <= value_of X A).
Proof. exact @top_sub_verdict. Qed.
Print Assumptions C97_sub_verdict.

(** A result too large for the limbs it is given is an error. *)
Theorem C97_sub_far : forall (E : Env) a b x y s, value a = Some x -> value b = Some y -> (1 <= n_limbs (bparams a))%nat ->
  2 ^ Z.of_nat (limb_width (bparams a) * n_limbs (bparams a)) <= Z.abs (x - y) ->
  fst (run true (sub a b) s) = Err IoError.
Proof. exact @top_sub_far. Qed.
Print Assumptions C97_sub_far.

Theorem C97_mult_far : forall (E : Env) a b x y s, value a = Some x -> value b = Some y ->
  limb_width (bparams a) = limb_width (bparams b) -> (1 <= n_limbs (bparams a) + n_limbs (bparams b))%nat ->
  2 ^ Z.of_nat (limb_width (bparams a) * (n_limbs (bparams a) + n_limbs (bparams b))) <= Z.abs (x * y) ->
  fst (run true (mult a b) s) = Err IoError.
Proof. exact @top_mult_far. Qed.
Print Assumptions C97_mult_far.

Theorem C97_assert_product_mod_far : forall (E : Env) a b m r x y z s,
  value a = Some x -> value b = Some y -> value m = Some z -> z <> 0 ->
  limb_width (bparams b) = limb_width (bparams a) -> limb_width (bparams m) = limb_width (bparams a) ->
  limb_width (bparams r) = limb_width (bparams a) -> (1 <= length (limbs a) + length (limbs b))%nat ->
  2 ^ Z.of_nat (limb_width (bparams a) * (length (limbs a) + length (limbs b))) <= Z.abs (Z.quot (x * y) z) ->
  fst (run true (assert_product_mod a b m r) s) = Err IoError.
Proof. exact @top_apm_far. Qed.
Print Assumptions C97_assert_product_mod_far.

(** Dividing by zero panics while proving. *)
Theorem C97_mult_mod_zero : forall (E : Env) a b m x y s, value a = Some x -> value b = Some y -> value m = Some 0 ->
  limb_width (bparams a) = limb_width (bparams b) -> fst (run true (mult_mod a b m) s) = Panic.
Proof. exact @top_mult_mod_zero. Qed.
Print Assumptions C97_mult_mod_zero.

Theorem C97_red_mod_zero : forall (E : Env) a m x s, value a = Some x -> value m = Some 0 ->
  limb_width (bparams a) = limb_width (bparams m) -> fst (run true (red_mod a m) s) = Panic.
Proof. exact @top_red_mod_zero. Qed.
Print Assumptions C97_red_mod_zero.

Theorem C97_assert_product_mod_zero : forall (E : Env) a b m r x y s,
  value a = Some x -> value b = Some y -> value m = Some 0 ->
  limb_width (bparams b) = limb_width (bparams a) -> limb_width (bparams m) = limb_width (bparams a) ->
  limb_width (bparams r) = limb_width (bparams a) -> (1 <= length (limbs a) + length (limbs b))%nat ->
  fst (run true (assert_product_mod a b m r) s) = Panic.
Proof. exact @top_apm_zero. Qed.
Print Assumptions C97_assert_product_mod_zero.

(** Zero divides zero, but asking for it panics (with a nonzero second number it is an error, C37). *)
Theorem C97_divides_zero : forall (E : Env) a b s, value a = Some 0 -> value b = Some 0 ->
  limb_width (bparams a) = limb_width (bparams b) -> (1 <= n_limbs (bparams b))%nat ->
  fst (run true (divides a b) s) = Panic.
Proof. exact @top_divides_zero. Qed.
Print Assumptions C97_divides_zero.

(** Operands of different limb widths are an error before anything is allocated, in setup and in proving. *)
Theorem C97_widths : forall (E : Env) wit a b s, limb_width (bparams a) <> limb_width (bparams b) ->
  run wit (mult a b) s = (Err Unsatisfiable, s) /\ run wit (divides a b) s = (Err Unsatisfiable, s) /\
  run wit (red_mod a b) s = (Err Unsatisfiable, s) /\
  (forall p, run wit (verify_mult a b p) s = (Err Unsatisfiable, s) /\ run wit (verify_mult a p b) s = (Err Unsatisfiable, s)) /\
  (forall m, run wit (mult_mod a b m) s = (Err Unsatisfiable, s)) /\
  (forall m r, run wit (assert_product_mod a b m r) s = (Err Unsatisfiable, s) /\
     run wit (assert_product_mod a m b r) s = (Err Unsatisfiable, s) /\
     run wit (assert_product_mod a m r b) s = (Err Unsatisfiable, s)).
Proof. exact @top_widths. Qed.
Print Assumptions C97_widths.

(** What an honest run ends with, and its verdict on its own assignment. *)
Definition C97_out {E : Env} {A B} (f : A -> B) (m : prog A) : res B * bool :=
  let '(r, s) := run true m st_init in
  (match r with Ok a => Ok (f a) | Err e => Err e | Panic => Panic end, satb (asg s) s).

Example C97_case : let E := small_env 251 in
  let two (f : bignat -> bignat -> prog bignat) x wx nx y wy ny :=
    let! a := alloc_from_nat (Ok x) wx nx in let! b := alloc_from_nat (Ok y) wy ny in f a b in
  let see b := (value b, limb_values b) in
  group_no_wrap (Z.max 7 (7 + (2 ^ 3 - 1))) 3 /\ group_room (Z.max 7 (7 + (2 ^ 3 - 1))) 3 /\
  nat_to_limbs (-1) 3 2 = Ok [7; 7] /\ nat_to_limbs (-64) 3 2 = Err Unsatisfiable /\
  C97_out see (two sub 37 3%nat 2%nat 30 3%nat 2%nat) = (Ok (Some 7, Some [7; 0]), true) /\
  C97_out see (two sub 30 3%nat 2%nat 37 3%nat 2%nat) = (Ok (Some (-7), Some [1; 7]), false) /\
  fst (C97_out see (two sub 0 3%nat 1%nat 37 3%nat 2%nat)) = Err IoError /\
  fst (C97_out see (two red_mod 30 3%nat 2%nat 0 3%nat 2%nat)) = Panic /\
  fst (C97_out see (two (fun a b => let! qr := mult_mod a a b in Ret (fst qr)) 30 3%nat 2%nat 0 3%nat 2%nat)) = Panic /\
  fst (C97_out see (two (fun a b => assert_product_mod a a b a) 30 3%nat 2%nat 0 3%nat 2%nat)) = Panic /\
  fst (C97_out see (two (fun a b => let! _ := divides a b in Ret a) 0 3%nat 2%nat 0 3%nat 2%nat)) = Panic /\
  fst (C97_out see (two mult 30 3%nat 2%nat 5 4%nat 2%nat)) = Err Unsatisfiable.
Proof. vm_compute. repeat split; first [discriminate | repeat constructor]. Qed.

(** The product and the quotient of uncarried numbers can be too large. *)
Example C97_far_case : let E := small_env 251 in
  let u x := alloc_from_limbs (Ok [x]) (Some 250) 2 1 in
  fst (C97_out value (let! a := u 5 in let! b := u 6 in mult a b)) = Err IoError /\
  fst (C97_out value (let! a := u 50 in let! b := u 6 in let! m := u 2 in assert_product_mod a b m b)) = Err IoError.
Proof. vm_compute. auto. Qed.
