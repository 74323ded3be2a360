(** C85: exact verdicts of products and divisions. *)
From Coq Require Import ZArith Bool List.
From Verif.Model Require Import Base CS Bellpepper Util Poly Bignat Fields.
From Verif.Spec Require Import Spec SpecExact.
From Verif.Proofs Require Import PrimeFields PrimeMid TopExact DividesP.
Import ListNotations.
Local Open Scope Z_scope.

(** An honest check of a claimed product is satisfied exactly if the product is right and the limbs without a counterpart are zero. *)
Theorem C85_verify_mult : forall (E : Env) (W : Wf E) a b p A B P s,
  let w := limb_width (bparams a) in
  let M := Z.max (product_word (length A) (max_word (bparams a)) (length B) (max_word (bparams b))) (max_word (bparams p)) in
  let g := group_size M w in
  good s -> bignat_at s a A -> bignat_at s b B -> bignat_at s p P ->
  limb_width (bparams b) = w -> limb_width (bparams p) = w -> (1 <= w)%nat -> A <> [] -> B <> [] -> P <> [] ->
  group_no_wrap M w -> group_room M w ->
  exists s', run true (verify_mult a b p) s = (Ok tt, s') /\
    (good s' <-> value_of (2 ^ Z.of_nat w) P = value_of (2 ^ Z.of_nat w) A * value_of (2 ^ Z.of_nat w) B /\
       forall i, (common_limbs g (length A + length B - 1) (length P) <= i)%nat -> conv A B i = 0 /\ nth i P 0 = 0).
Proof. exact @top_verify_mult_verdict. Qed.
Print Assumptions C85_verify_mult.

(** An honest multiplication returns the product; it is satisfied exactly if the product fits the merged limbs of the shorter side. *)
Theorem C85_mult : forall (E : Env) (W : Wf E) a b A B s,
  let w := limb_width (bparams a) in
  let M := Z.max (product_word (length A) (max_word (bparams a)) (length B) (max_word (bparams b))) (2 ^ Z.of_nat w - 1) in
  let g := group_size M w in
  let n := (length A + length B)%nat in
  let P := value_of (2 ^ Z.of_nat w) A * value_of (2 ^ Z.of_nat w) B in
  good s -> bignat_at s a A -> bignat_at s b B -> limb_width (bparams b) = w ->
  A <> [] -> B <> [] -> (1 <= w)%nat -> (w < NUM_BITS)%nat -> P < 2 ^ Z.of_nat (w * n) ->
  group_no_wrap M w -> group_room M w ->
  exists p s' D, run true (mult a b) s = (Ok p, s') /\ bignat_at s' p D /\ length D = n /\ value p = Some P /\
    (good s' <-> P < 2 ^ Z.of_nat (w * (n_groups (n - 1) g * g))).
Proof. exact @top_mult_verdict. Qed.
Print Assumptions C85_mult.

(** An honest division returns quotient and remainder; it is satisfied exactly if the limbs without a counterpart are zero. *)
Theorem C85_mult_mod : forall (E : Env) (W : Wf E) a b m A B Mm s,
  let w := limb_width (bparams a) in
  let X := 2 ^ Z.of_nat w in
  let ql := q_limbs (n_bits_of a + n_bits_of b) (min_bits (bparams m)) w in
  let M := Z.max (product_word (length A) (max_word (bparams a)) (length B) (max_word (bparams b)))
     (product_word ql (X - 1) (length Mm) (max_word (bparams m)) + (X - 1)) in
  let g := group_size M w in
  let P := value_of X A * value_of X B in
  good s -> bignat_at s a A -> bignat_at s b B -> bignat_at s m Mm ->
  limb_width (bparams b) = w -> limb_width (bparams m) = w \/ length Mm = 1%nat ->
  A <> [] -> B <> [] -> Mm <> [] -> (1 <= w)%nat -> (w < NUM_BITS)%nat ->
  0 < value_of X Mm <= 2 ^ Z.of_nat (w * length Mm) ->
  P / value_of X Mm < 2 ^ Z.of_nat (w * ql) ->
  group_no_wrap M w -> group_room M w ->
  exists q r s' Q R, run true (mult_mod a b m) s = (Ok (q, r), s') /\
    bignat_at s' q Q /\ bignat_at s' r R /\ length Q = ql /\ length R = length Mm /\
    Forall (fun v => 0 <= v < X) Q /\ Forall (fun v => 0 <= v < X) R /\
    value_of X Q = P / value_of X Mm /\ value_of X R = P mod value_of X Mm /\
    value q = Some (P / value_of X Mm) /\ value r = Some (P mod value_of X Mm) /\
    (good s' <-> no_excess g A B Q Mm R).
Proof. exact @top_mult_mod_verdict. Qed.
Print Assumptions C85_mult_mod.

(** The check of a claimed remainder. *)
Theorem C85_assert_product_mod : forall (E : Env) (W : Wf E) a b m r A B Mm R s,
  let w := limb_width (bparams a) in
  let X := 2 ^ Z.of_nat w in
  let ql := (length A + length B)%nat in
  let M := Z.max (product_word (length A) (max_word (bparams a)) (length B) (max_word (bparams b)))
     (product_word ql (X - 1) (length Mm) (max_word (bparams m)) + max_word (bparams r)) in
  let g := group_size M w in
  let P := value_of X A * value_of X B in
  good s -> bignat_at s a A -> bignat_at s b B -> bignat_at s m Mm -> bignat_at s r R ->
  limb_width (bparams b) = w -> limb_width (bparams m) = w -> limb_width (bparams r) = w ->
  A <> [] -> B <> [] -> Mm <> [] -> R <> [] -> (1 <= w)%nat -> (w < NUM_BITS)%nat ->
  0 < value_of X Mm -> P / value_of X Mm < 2 ^ Z.of_nat (w * ql) ->
  group_no_wrap M w -> group_room M w ->
  exists q s' Q, run true (assert_product_mod a b m r) s = (Ok q, s') /\
    bignat_at s' q Q /\ length Q = ql /\ Forall (fun v => 0 <= v < X) Q /\
    value_of X Q = P / value_of X Mm /\ value q = Some (P / value_of X Mm) /\
    (good s' <-> value_of X R = P mod value_of X Mm /\ no_excess g A B Q Mm R).
Proof. exact @top_apm_verdict. Qed.
Print Assumptions C85_assert_product_mod.

(** An honest reduction. *)
Theorem C85_red_mod : forall (E : Env) (W : Wf E) a m A Mm s,
  let w := limb_width (bparams a) in
  let X := 2 ^ Z.of_nat w in
  let ql := q_limbs (n_bits_of a) (min_bits (bparams m)) w in
  let M := Z.max (max_word (bparams a)) (product_word ql (X - 1) (length Mm) (max_word (bparams m)) + (X - 1)) in
  let g := group_size M w in
  let P := value_of X A in
  good s -> bignat_at s a A -> bignat_at s m Mm -> limb_width (bparams m) = w ->
  A <> [] -> Mm <> [] -> (1 <= w)%nat -> (w < NUM_BITS)%nat ->
  0 < value_of X Mm <= 2 ^ Z.of_nat (w * length Mm) ->
  P / value_of X Mm < 2 ^ Z.of_nat (w * ql) ->
  group_no_wrap M w -> group_room M w ->
  exists r s' Q R, run true (red_mod a m) s = (Ok r, s') /\
    bignat_at s' r R /\ length Q = ql /\ length R = length Mm /\
    Forall (fun v => 0 <= v < X) Q /\ Forall (fun v => 0 <= v < X) R /\
    value_of X Q = P / value_of X Mm /\ value_of X R = P mod value_of X Mm /\
    value r = Some (P mod value_of X Mm) /\
    (good s' <-> no_excess g A [1] Q Mm R).
Proof. exact @top_red_mod_verdict. Qed.
Print Assumptions C85_red_mod.

(** The quotients and remainders some completion of the witness is accepted with: exactly those in range that satisfy the identity and leave no excess. *)
Theorem C85_mult_mod_prover : forall (E : Env) (W : Wf E) wit a b m A B Mm Q R s q r s' rho0,
  let w := limb_width (bparams a) in
  let X := 2 ^ Z.of_nat w in
  let M := Z.max (product_word (length A) (max_word (bparams a)) (length B) (max_word (bparams b)))
     (product_word (length (limbs q)) (X - 1) (length Mm) (max_word (bparams m)) + (X - 1)) in
  let g := group_size M w in
  good_for rho0 s -> bignat_for rho0 s a A -> bignat_for rho0 s b B -> bignat_for rho0 s m Mm ->
  run wit (mult_mod a b m) s = (Ok (q, r), s') -> A <> [] -> B <> [] -> Mm <> [] -> (1 <= w)%nat -> (w < NUM_BITS)%nat ->
  Z.of_nat (length A + length B) <= modulus -> Z.of_nat (length (limbs q) + length Mm) <= modulus ->
  group_no_wrap M w -> group_room M w ->
  ((exists rho, same_on s rho rho0 /\ sat rho s' /\ wires rho (limbs q) = Q /\ wires rho (limbs r) = R) <->
   length Q = length (limbs q) /\ length R = length Mm /\
   Forall (fun v => 0 <= v < X) Q /\ Forall (fun v => 0 <= v < X) R /\
   value_of X A * value_of X B = value_of X Q * value_of X Mm + value_of X R /\
   no_excess g A B Q Mm R).
Proof. exact @top_mult_mod_prover. Qed.
Print Assumptions C85_mult_mod_prover.

(** The quotients the check of a claimed remainder accepts. *)
Theorem C85_assert_product_mod_prover : forall (E : Env) (W : Wf E) wit a b m r A B Mm R Q s q s' rho0,
  let w := limb_width (bparams a) in
  let X := 2 ^ Z.of_nat w in
  let ql := (length A + length B)%nat in
  let M := Z.max (product_word (length A) (max_word (bparams a)) (length B) (max_word (bparams b)))
     (product_word ql (X - 1) (length Mm) (max_word (bparams m)) + max_word (bparams r)) in
  let g := group_size M w in
  good_for rho0 s -> bignat_for rho0 s a A -> bignat_for rho0 s b B -> bignat_for rho0 s m Mm -> bignat_for rho0 s r R ->
  run wit (assert_product_mod a b m r) s = (Ok q, s') ->
  A <> [] -> B <> [] -> Mm <> [] -> R <> [] -> (1 <= w)%nat -> (w < NUM_BITS)%nat ->
  Z.of_nat (length A + length B + length Mm) <= modulus -> group_no_wrap M w -> group_room M w ->
  ((exists rho, same_on s rho rho0 /\ sat rho s' /\ wires rho (limbs q) = Q) <->
   length Q = ql /\ Forall (fun v => 0 <= v < X) Q /\
   value_of X A * value_of X B = value_of X Q * value_of X Mm + value_of X R /\ no_excess g A B Q Mm R).
Proof. exact @top_apm_prover. Qed.
Print Assumptions C85_assert_product_mod_prover.

(** The remainders a reduction accepts. *)
Theorem C85_red_mod_prover : forall (E : Env) (W : Wf E) wit a m A Mm R s r s' rho0,
  let w := limb_width (bparams a) in
  let X := 2 ^ Z.of_nat w in
  let ql := q_limbs (n_bits_of a) (min_bits (bparams m)) w in
  let M := Z.max (max_word (bparams a)) (product_word ql (X - 1) (length Mm) (max_word (bparams m)) + (X - 1)) in
  let g := group_size M w in
  good_for rho0 s -> bignat_for rho0 s a A -> bignat_for rho0 s m Mm ->
  run wit (red_mod a m) s = (Ok r, s') -> A <> [] -> Mm <> [] -> (1 <= w)%nat -> (w < NUM_BITS)%nat ->
  Z.of_nat (ql + length Mm) <= modulus -> group_no_wrap M w -> group_room M w ->
  ((exists rho, same_on s rho rho0 /\ sat rho s' /\ wires rho (limbs r) = R) <->
   length R = length Mm /\ Forall (fun v => 0 <= v < X) R /\
   exists Q, length Q = ql /\ Forall (fun v => 0 <= v < X) Q /\
     value_of X A = value_of X Q * value_of X Mm + value_of X R /\ no_excess g A [1] Q Mm R).
Proof. exact @top_red_mod_prover. Qed.
Print Assumptions C85_red_mod_prover.

(** An honest divisibility check whose quotient exists. *)
Theorem C85_divides : forall (E : Env) (W : Wf E) a b A B Q s,
  let w := limb_width (bparams a) in
  let X := 2 ^ Z.of_nat w in
  let M := Z.max (product_word (length A) (max_word (bparams a)) (length B) (X - 1)) (max_word (bparams b)) in
  let g := group_size M w in
  good s -> bignat_at s a A -> bignat_at s b B -> limb_width (bparams b) = w ->
  A <> [] -> B <> [] -> (1 <= w)%nat -> (w < NUM_BITS)%nat -> 0 < value_of X A ->
  length Q = length B -> Forall (fun v => 0 <= v < X) Q -> value_of X A * value_of X Q = value_of X B ->
  group_no_wrap M w -> group_room M w ->
  exists s', run true (divides a b) s = (Ok tt, s') /\
    (good s' <-> forall i, (common_limbs g (length A + length B - 1) (length B) <= i)%nat -> conv A Q i = 0 /\ nth i B 0 = 0).
Proof. exact @top_divides_verdict. Qed.
Print Assumptions C85_divides.

(** The pairs some completion of the witness is accepted with. *)
Theorem C85_divides_prover : forall (E : Env) (W : Wf E) wit a b A B s u s' rho0,
  let w := limb_width (bparams a) in
  let X := 2 ^ Z.of_nat w in
  let M := Z.max (product_word (length A) (max_word (bparams a)) (length B) (X - 1)) (max_word (bparams b)) in
  let g := group_size M w in
  good_for rho0 s -> bignat_for rho0 s a A -> bignat_for rho0 s b B ->
  run wit (divides a b) s = (Ok u, s') -> A <> [] -> B <> [] -> (1 <= w)%nat -> (w < NUM_BITS)%nat ->
  Z.of_nat (length A + length B) <= modulus -> group_no_wrap M w -> group_room M w ->
  ((exists rho, same_on s rho rho0 /\ sat rho s') <->
   exists Q, length Q = length B /\ Forall (fun v => 0 <= v < X) Q /\ value_of X A * value_of X Q = value_of X B /\
     forall i, (common_limbs g (length A + length B - 1) (length B) <= i)%nat -> conv A Q i = 0 /\ nth i B 0 = 0).
Proof. exact @top_divides_prover. Qed.
Print Assumptions C85_divides_prover.

(** What an honest run ends with: the values of its results and whether its own assignment satisfies everything. *)
Definition C85_verdict {E : Env} {A B} (f : A -> B) (m : prog A) : option (B * bool) :=
  let '(r, s) := run true m st_init in match r with Ok a => Some (f a, satb (asg s) s) | _ => None end.

(** A product of two limbs on one side: accepted while the quotient needs one limb, rejected when it needs
    two although quotient and remainder are right. *)
Example C85_case : let E := pallas_env true in
  let div a b m := C85_verdict (fun qr => (value (fst qr), value (snd qr)))
    (let! x := alloc_from_nat (Ok a) 100 1 in let! y := alloc_from_nat (Ok b) 100 1 in
     let! z := alloc_from_nat (Ok m) 100 1 in mult_mod x y z) in
  let red a m := C85_verdict value
    (let! x := alloc_from_limbs (Ok [a]) (Some (2 ^ 120)) 100 1 in
     let! z := alloc_from_nat (Ok m) 100 1 in red_mod x z) in
  div (2 ^ 99) 4 5 = Some ((Some (2 ^ 101 / 5), Some 2), true) /\
  div (2 ^ 99) 4 1 = Some ((Some (2 ^ 101), Some 0), false) /\
  red (2 ^ 110 + 1) (2 ^ 20) = Some (Some 1, true) /\
  red (2 ^ 110 + 1) 1 = Some (Some 0, false) /\
  no_excess 1 [2 ^ 99] [4] [2 ^ 101 / 5; 0] [5] [2] /\
  ~ no_excess 1 [2 ^ 99] [4] [0; 2] [1] [0].
Proof.
  intros E div red. repeat match goal with |- _ /\ _ => split end; try (vm_compute; reflexivity).
  - intros [|[|i]] Hi; [inversion Hi|vm_compute; auto|].
    rewrite !ExactP.conv_high by (cbn [length Nat.add Nat.sub]; auto with arith). destruct i; auto.
  - intros H. specialize (H 1%nat (le_n _)). vm_compute in H. destruct H as (_ & H & _). discriminate.
Qed.

(** 6 divides 36 with a quotient of one limb, also when the dividend is written with a spare limb. *)
Example C85_divides_case : let E := mid_env 65521 in
  let div x nx y ny := C85_verdict (fun _ => tt)
    (let! a := alloc_from_nat (Ok x) 3 nx in let! b := alloc_from_nat (Ok y) 3 ny in divides a b) in
  group_no_wrap (product_word 1 7 3 7) 3 /\ group_room (product_word 1 7 3 7) 3 /\
  div 6 1%nat 36 2%nat = Some (tt, true) /\ div 6 1%nat 36 3%nat = Some (tt, true) /\ div 6 2%nat 36 2%nat = Some (tt, true).
Proof. vm_compute. repeat split; first [discriminate | repeat constructor]. Qed.
