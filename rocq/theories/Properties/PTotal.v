(** C82: verdicts of honest runs on right and wrong values. *)
From Coq Require Import ZArith Bool List.
From Verif.Model Require Import Base CS Bellpepper Util Poly Bignat Fields.
From Verif.Spec Require Import Spec.
From Verif.Proofs Require Import PrimeFields TopTotal.
Import ListNotations.
Local Open Scope Z_scope.

(** A range check accepts exactly the values in range. *)
Theorem C82_fits : forall (E : Env) (W : Wf E) n k v s,
  good s -> num_at s n v -> (1 <= k <= NUM_BITS)%nat ->
  exists s', run true (fits_in_bits n k) s = (Ok tt, s') /\ (good s' <-> v < 2 ^ Z.of_nat k).
Proof. exact @top_fits_decides. Qed.
Print Assumptions C82_fits.

(** A decomposition into bits accepts exactly the values in range. *)
Theorem C82_decompose : forall (E : Env) (W : Wf E) n k v s,
  good s -> num_at s n v -> (k <= NUM_BITS)%nat ->
  exists bv s', run true (num_decompose n k) s = (Ok bv, s') /\ (good s' <-> v < 2 ^ Z.of_nat k).
Proof. exact @top_decompose_decides. Qed.
Print Assumptions C82_decompose.

(** The check that limbs are below the limb bound. *)
Theorem C82_well_formed : forall (E : Env) (W : Wf E) b vs s,
  good s -> bignat_at s b vs ->
  (1 <= limb_width (bparams b) <= NUM_BITS)%nat ->
  exists s', run true (assert_well_formed b) s = (Ok tt, s') /\
    (good s' <-> Forall (fun v => v < 2 ^ Z.of_nat (limb_width (bparams b))) vs).
Proof. exact @top_well_formed_decides. Qed.
Print Assumptions C82_well_formed.

(** The carried comparison never fails, whatever the two numbers are. *)
Theorem C82_when_carried_total : forall (E : Env) (W : Wf E) a b xs ys s,
  let w := limb_width (bparams a) in
  let M := Z.max (max_word (bparams a)) (max_word (bparams b)) in
  good s -> bignat_at s a xs -> bignat_at s b ys -> limb_width (bparams b) = w -> (1 <= w)%nat ->
  0 <= M -> (carry_bits_f64 M w <= NUM_BITS)%nat -> exists s', run true (equal_when_carried a b) s = (Ok tt, s').
Proof. exact @top_ewc_total. Qed.
Print Assumptions C82_when_carried_total.

(** It accepts exactly equal numbers with zero excess limbs. *)
Theorem C82_when_carried : forall (E : Env) (W : Wf E) a b xs ys s,
  let w := limb_width (bparams a) in
  let M := Z.max (max_word (bparams a)) (max_word (bparams b)) in
  good s -> bignat_at s a xs -> bignat_at s b ys -> limb_width (bparams b) = w -> (1 <= w)%nat ->
  0 <= M -> no_wrap M w -> carry_room M w ->
  exists s', run true (equal_when_carried a b) s = (Ok tt, s') /\
    (good s' <-> value_of (2 ^ Z.of_nat w) xs = value_of (2 ^ Z.of_nat w) ys /\
       forall i, (Nat.min (length xs) (length ys) <= i)%nat -> nth i xs 0 = 0 /\ nth i ys 0 = 0).
Proof. exact @top_ewc_decides. Qed.
Print Assumptions C82_when_carried.

(** The regrouped comparison. *)
Theorem C82_regroup : forall (E : Env) (W : Wf E) a b xs ys s,
  let w := limb_width (bparams a) in
  let M := Z.max (max_word (bparams a)) (max_word (bparams b)) in
  let g := group_size M w in
  let n := Nat.min (n_groups (length xs) g) (n_groups (length ys) g) in
  good s -> bignat_at s a xs -> bignat_at s b ys -> limb_width (bparams b) = w -> (1 <= w)%nat ->
  xs <> [] -> ys <> [] -> group_no_wrap M w -> group_room M w ->
  exists s', run true (equal_when_carried_regroup a b) s = (Ok tt, s') /\
    (good s' <-> value_of (2 ^ Z.of_nat w) xs = value_of (2 ^ Z.of_nat w) ys /\
       forall i, (n * g <= i)%nat -> nth i xs 0 = 0 /\ nth i ys 0 = 0).
Proof. exact @top_regroup_decides. Qed.
Print Assumptions C82_regroup.

(** The check of a claimed product. *)
Theorem C82_verify_mult : forall (E : Env) (W : Wf E) a b p A B P s,
  let w := limb_width (bparams a) in
  let M := Z.max (product_word (length A) (max_word (bparams a)) (length B) (max_word (bparams b))) (max_word (bparams p)) in
  let g := group_size M w in
  good s -> bignat_at s a A -> bignat_at s b B -> bignat_at s p P ->
  limb_width (bparams b) = w -> limb_width (bparams p) = w -> (1 <= w)%nat -> A <> [] -> B <> [] -> P <> [] ->
  Z.of_nat (length A + length B) <= modulus -> group_no_wrap M w -> group_room M w ->
  fits_groups w g (length A + length B - 1) (length P) (value_of (2 ^ Z.of_nat w) A * value_of (2 ^ Z.of_nat w) B) ->
  exists s', run true (verify_mult a b p) s = (Ok tt, s') /\
    (good s' <-> value_of (2 ^ Z.of_nat w) P = value_of (2 ^ Z.of_nat w) A * value_of (2 ^ Z.of_nat w) B).
Proof. exact @top_verify_mult_decides. Qed.
Print Assumptions C82_verify_mult.

(** The check of a claimed remainder: accepted exactly if it is the remainder. *)
Theorem C82_assert_product_mod : forall (E : Env) (W : Wf E) a b m r A B Mm R s,
  let w := limb_width (bparams a) in
  let X := 2 ^ Z.of_nat w in
  let ql := (length A + length B)%nat in
  let M := Z.max (product_word (length A) (max_word (bparams a)) (length B) (max_word (bparams b)))
     (product_word ql (X - 1) (length Mm) (max_word (bparams m)) + max_word (bparams r)) in
  let g := group_size M w in
  let P := value_of X A * value_of X B in
  good s -> bignat_at s a A -> bignat_at s b B -> bignat_at s m Mm -> bignat_at s r R ->
  limb_width (bparams b) = w -> limb_width (bparams m) = w -> limb_width (bparams r) = w ->
  A <> [] -> B <> [] -> Mm <> [] -> R <> [] -> (1 <= w)%nat -> (w < NUM_BITS)%nat ->
  0 < value_of X Mm -> P / value_of X Mm < 2 ^ Z.of_nat (w * ql) ->
  Z.of_nat (length A + length B + length Mm) <= modulus -> group_no_wrap M w -> group_room M w ->
  fits_groups w g (length A + length B - 1) (Nat.max (ql + length Mm - 1) (length R)) P ->
  exists q s', run true (assert_product_mod a b m r) s = (Ok q, s') /\ value q = Some (P / value_of X Mm) /\
    (good s' <-> value_of X R = P mod value_of X Mm).
Proof. exact @top_apm_decides. Qed.
Print Assumptions C82_assert_product_mod.

(** What an honest run of a check ends with: whether its own assignment satisfies everything. *)
Definition C82_verdict {E : Env} {A} (m : prog A) : option bool :=
  let '(r, s) := run true m st_init in match r with Ok _ => Some (satb (asg s) s) | _ => None end.

(** One accepted and one rejected run of each check. *)
Example C82_case : let E := pallas_env true in
  let check n := let! x := num_alloc (Ok n) in fits_in_bits x 4 in
  let cmp f (a b : list Z) := let! x := alloc_from_limbs (Ok a) (Some 1000) 8 3 in
      let! y := alloc_from_limbs (Ok b) (Some 1000) 8 3 in f x y in
  let mul p := let! x := alloc_from_nat (Ok 370) 8 2 in let! y := alloc_from_nat (Ok 300) 8 2 in
      let! z := alloc_from_nat (Ok p) 8 4 in verify_mult x y z in
  let pm r := let! x := alloc_from_nat (Ok 370) 8 2 in let! y := alloc_from_nat (Ok 300) 8 2 in
      let! z := alloc_from_nat (Ok 430) 8 2 in let! t := alloc_from_nat (Ok r) 8 2 in
      assert_product_mod x y z t in
  C82_verdict (check 15) = Some true /\ C82_verdict (check 16) = Some false /\
  C82_verdict (cmp equal_when_carried [1; 2; 3] [257; 1; 3]) = Some true /\
  C82_verdict (cmp equal_when_carried [1; 2; 3] [258; 1; 3]) = Some false /\
  C82_verdict (cmp equal_when_carried_regroup [1; 2; 3] [257; 1; 3]) = Some true /\
  C82_verdict (cmp equal_when_carried_regroup [1; 2; 3] [258; 1; 3]) = Some false /\
  C82_verdict (mul 111000) = Some true /\ C82_verdict (mul 111001) = Some false /\
  C82_verdict (pm 60) = Some true /\ C82_verdict (pm 490) = Some false.
Proof. vm_compute. repeat split. Qed.
