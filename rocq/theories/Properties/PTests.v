(** C83: the verdicts of the project's own test circuits, on every input. *)
From Coq Require Import ZArith Bool List.
From Verif.Model Require Import Base CS TestCS Bellpepper Util Poly Bignat RepoTests Fields F64.
From Verif.Spec Require Import Spec SpecF64.
From Verif.Proofs Require Import PrimeFields TestsP TestsFr ProductAll.
Import ListNotations.
Local Open Scope Z_scope.

(** NumberBitDecomp: satisfied exactly on the numbers whose residue has the number of bits. *)
Theorem C83_decomp : forall (E : Env) (W : Wf E) n k, 0 <= n -> (k <= NUM_BITS)%nat ->
  verdict (number_bit_decomp n k) = Ok (n mod modulus <? 2 ^ Z.of_nat k).
Proof. exact @top_decomp_verdict. Qed.
Print Assumptions C83_decomp.

Theorem C83_decomp_negative : forall (E : Env) n k, n < 0 -> verdict (number_bit_decomp n k) = Panic.
Proof. exact @top_decomp_negative. Qed.
Print Assumptions C83_decomp_negative.

(** BigNatBitDecomp: satisfied on every number that fits. *)
Theorem C83_bignat_decomp : forall (E : Env) (W : Wf E) n w k,
  0 <= n < 2 ^ Z.of_nat (w * k) -> (1 <= w < NUM_BITS)%nat -> (1 <= k)%nat ->
  verdict (bignat_bit_decomp n w k) = Ok true.
Proof. exact @top_bn_decomp_verdict. Qed.
Print Assumptions C83_bignat_decomp.

(** The randomised test holds on every number, and discards exactly the widths outside 4..200. *)
Theorem C83_quickcheck : forall (E : Env) (W : Wf E) n w, (200 < NUM_BITS)%nat -> 0 <= n ->
  big_nat_can_decompose n w = if (Nat.leb 4 w && Nat.leb w 200)%bool then Some (Ok true) else None.
Proof. exact @top_quickcheck. Qed.
Print Assumptions C83_quickcheck.

(** Carrier: satisfied exactly if the two lists of digits denote one integer. *)
Theorem C83_carrier : forall (E : Env) (W : Wf E) a b mw w n,
  (1 <= n)%nat -> (1 <= w)%nat -> length a = n -> length b = n ->
  Forall (fun v => 0 <= v <= mw) a -> Forall (fun v => 0 <= v <= mw) b -> mw < modulus ->
  no_wrap mw w -> carry_room mw w -> group_no_wrap mw w -> group_room mw w ->
  verdict (carrier a b mw w n) = Ok (value_of (2 ^ Z.of_nat w) (rev a) =? value_of (2 ^ Z.of_nat w) (rev b)).
Proof. exact @top_carrier_verdict. Qed.
Print Assumptions C83_carrier.

Theorem C83_carrier_lengths : forall (E : Env) a b mw w n, length a <> n \/ length b <> n ->
  verdict (carrier a b mw w n) = Err Unsatisfiable.
Proof. exact @top_carrier_lengths. Qed.
Print Assumptions C83_carrier_lengths.

(** MultMod: satisfied exactly if the claimed quotient and remainder are the true ones, and the modulus has its top
    bit set where that is asked for. *)
Theorem C83_mult_mod : forall (E : Env) (W : Wf E) (w na nb nm : nat) (full : bool) (a b m q r : Z),
  let X := 2 ^ Z.of_nat w in
  let ql := q_limbs (w * na + w * nb) (if full then w * nm else 0) w in
  let M := Z.max (product_word na (X - 1) nb (X - 1)) (product_word ql (X - 1) nm (X - 1) + (X - 1)) in
  (1 <= w < NUM_BITS)%nat -> (1 <= na)%nat -> (1 <= nb)%nat -> (1 <= nm)%nat -> (nm < na + nb)%nat ->
  0 <= a < 2 ^ Z.of_nat (w * na) -> 0 <= b < 2 ^ Z.of_nat (w * nb) -> 0 < m < 2 ^ Z.of_nat (w * nm) ->
  0 <= q < 2 ^ Z.of_nat (w * (na + nb - nm)) -> 0 <= r < 2 ^ Z.of_nat (w * nm) ->
  a * b / m < 2 ^ Z.of_nat (w * ql) -> group_room M w ->
  fits_groups w (group_size M w) (na + nb - 1) (Nat.max (ql + nm - 1) nm) (a * b) ->
  verdict (mult_mod_circuit w na nb nm full a b m q r) =
    Ok ((negb full || (2 ^ Z.of_nat (w * nm - 1) <=? m)) && (q =? a * b / m) && (r =? (a * b) mod m)).
Proof. exact @top_mult_mod_verdict. Qed.
Print Assumptions C83_mult_mod.

(** PolynomialMultiplier: satisfied by all nonempty coefficient lists; two empty ones panic. *)
Theorem C83_polynomial : forall (E : Env) (W : Wf E) a b, a <> [] \/ b <> [] -> Forall canon a -> Forall canon b ->
  verdict (polynomial_multiplier a b) = Ok true.
Proof. exact @top_poly_verdict_all. Qed.
Print Assumptions C83_polynomial.

Theorem C83_polynomial_empty : forall (E : Env), verdict (polynomial_multiplier [] []) = Panic.
Proof. exact @top_poly_empty. Qed.
Print Assumptions C83_polynomial_empty.

(** Over the test field, with the floating point carry width and any faithful logarithm: the sizes the Carrier tests
    use, with any number of digits up to 10. *)
Theorem C83_carrier_fr : forall l ck, faithful_log2 l -> let E := fr_f64 l ck in forall a b n,
  (1 <= n)%nat -> length a = n -> length b = n ->
  Forall (fun v => 0 <= v <= 10) a -> Forall (fun v => 0 <= v <= 10) b ->
  verdict (carrier a b 10 3 n) = Ok (value_of 8 (rev a) =? value_of 8 (rev b)).
Proof. exact top_carrier_fr. Qed.
Print Assumptions C83_carrier_fr.

Theorem C83_quickcheck_fr : forall l ck, let E := fr_f64 l ck in forall n w, 0 <= n ->
  big_nat_can_decompose n w = if (4 <=? w)%nat && (w <=? 200)%nat then Some (Ok true) else None.
Proof. exact top_quickcheck_fr. Qed.
Print Assumptions C83_quickcheck_fr.

(** The verdicts the project's tests of big numbers expect, each an instance of the theorems above. *)
Theorem C83_repo_tests : forall l ck, faithful_log2 l -> let E := fr_f64 l ck in
  (verdict (carrier [1; 1] [1; 1] 10 3 2) = Ok true /\
   verdict (carrier [1; 1; 1; 1] [1; 1; 1; 1] 10 3 4) = Ok true /\
   verdict (carrier [1; 0; 1; 1] [1; 1; 1; 1] 10 3 4) = Ok false /\
   verdict (carrier [1; 1; 0; 9] [1; 1; 1; 1] 10 3 4) = Ok true /\
   verdict (carrier [1; 1; 9; 9] [1; 2; 2; 1] 10 3 4) = Ok true /\
   verdict (carrier [1; 1; 8; 9] [1; 2; 2; 1] 10 3 4) = Ok false) /\
  (verdict (mult_mod_circuit 4 2 2 2 true 1 1 255 0 1) = Ok true /\
   verdict (mult_mod_circuit 4 2 2 2 true 1 0 255 0 0) = Ok true /\
   verdict (mult_mod_circuit 4 2 2 2 true 2 2 255 0 4) = Ok true /\
   verdict (mult_mod_circuit 4 2 2 2 true 16 16 255 1 1) = Ok true /\
   verdict (mult_mod_circuit 4 2 2 2 true 254 254 255 253 1) = Ok true /\
   verdict (mult_mod_circuit 4 2 2 2 true 254 254 255 253 0) = Ok false /\
   verdict (mult_mod_circuit 4 2 2 2 true 110 180 187 105 165) = Ok true /\
   verdict (mult_mod_circuit 4 6 2 2 true 16777215 180 255 11842740 0) = Ok true /\
   verdict (mult_mod_circuit 4 6 2 2 true 16777210 180 255 11842736 120) = Ok true /\
   verdict (mult_mod_circuit 32 64 4 4 false 16777210 180 255 11842736 120) = Ok true /\
   verdict (mult_mod_circuit 32 8 8 8 false
     11572336752428856981970994795408771577024165681374400871001196932361466228192
     87673389408848523602668121701204553693362841135953267897017930941776218798802
     0x40000000000000000000000000000000224698fc094cf91b992d30ed00000001
     35048542371029440058224000662033175648615707461806414787901284501179083518342
     26362617993085418618858432307761590013874563896298265114483698919121453084730) = Ok true) /\
  (verdict (number_bit_decomp 1 1) = Ok true /\ verdict (number_bit_decomp 1 2) = Ok true /\
   verdict (number_bit_decomp 5 2) = Ok false /\ verdict (number_bit_decomp 255 8) = Ok true).
Proof. exact top_repo_tests. Qed.
Print Assumptions C83_repo_tests.

(** The circuits executed outright, over a field with exact carry widths. *)
Example C83_case : let E := pallas_env true in
  verdict (carrier [1; 1; 9; 9] [1; 2; 2; 1] 10 3 4) = Ok true /\
  verdict (carrier [1; 1; 8; 9] [1; 2; 2; 1] 10 3 4) = Ok false /\
  verdict (carrier [1; 1] [1; 2; 2; 1] 10 3 4) = Err Unsatisfiable /\
  verdict (mult_mod_circuit 4 2 2 2 true 110 180 187 105 165) = Ok true /\
  verdict (mult_mod_circuit 4 2 2 2 true 254 254 255 253 0) = Ok false /\
  verdict (mult_mod_circuit 4 2 2 2 true 3 5 7 2 1) = Ok false /\
  verdict (mult_mod_circuit 4 2 2 2 false 3 5 7 2 1) = Ok true /\
  verdict (number_bit_decomp 5 2) = Ok false /\ verdict (number_bit_decomp 255 8) = Ok true /\
  verdict (polynomial_multiplier [1; 1; 1] [1; 1]) = Ok true /\
  verdict (polynomial_multiplier [] [4; 9]) = Ok true /\
  big_nat_can_decompose 37 4 = Some (Ok true) /\ big_nat_can_decompose 37 3 = None.
Proof. vm_compute. repeat split. Qed.
