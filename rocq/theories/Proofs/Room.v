(** The no-overflow conditions hold for limbs of the recorded width and enough room in the field. *)
From Coq Require Import ZArith Bool List Lia ZifyBool ZifyNat.
From Verif.Model Require Import Base CS Bellpepper Util Poly Bignat.
From Verif.Spec Require Import Spec.
From Verif.Proofs Require Import Field Arith Limbs Group Carry Regroup Mult TopBignat2.
Import ListNotations.
Local Open Scope Z_scope.

Section Room.
Context {E : Env} {W : Wf E}.

Lemma pow2_eq_mul a b : (a <= b)%nat -> 2 ^ Z.of_nat b = 2 ^ Z.of_nat a * 2 ^ Z.of_nat (b - a).
Proof. intros H. rewrite <- Z.pow_add_r by lia. f_equal. lia. Qed.

(** A word (B-1)*T admits exact carries as soon as 2*T*B is at most the power of two above 2*(B-1)*T. *)
Lemma room_of_T w T : (1 <= w)%nat -> 1 <= T ->
  let B := 2 ^ Z.of_nat w in
  let M := (B - 1) * T in
  (forall cb : nat, 2 * M <= 2 ^ Z.of_nat cb * B -> 2 ^ Z.of_nat cb < 2 * T -> False) ->
  2 * M <= 2 ^ Z.of_nat CAPACITY -> exact_carries M w -> group_no_wrap M w /\ group_room M w.
Proof.
  intros Hw HT B M Hgap Hcap [X1 X2].
  assert (HB : 2 <= B) by (apply pow2_two; auto).
  assert (HM : 1 <= M) by (unfold M; nia).
  pose proof (Z.log2_up_spec (2 * M) ltac:(lia)) as [_ HL].
  pose proof (Z.log2_up_nonneg (2 * M)) as HL0.
  assert (HLc : Z.log2_up (2 * M) <= Z.of_nat CAPACITY).
  { apply Z.log2_up_le_pow2; lia. }
  assert (HLw : Z.of_nat w < Z.log2_up (2 * M)).
  { destruct (Z.le_gt_cases (Z.log2_up (2 * M)) (Z.of_nat w)) as [H|]; [exfalso|auto].
    assert (2 ^ Z.log2_up (2 * M) <= B) by (unfold B; apply Z.pow_le_mono_r; lia).
    apply (Hgap 0%nat); change (2 ^ Z.of_nat 0) with 1; lia. }
  assert (Hcb : Z.of_nat (carry_bits_exact M w) = Z.log2_up (2 * M) - Z.of_nat w).
  { unfold carry_bits_exact. apply Z2Nat.id. lia. }
  assert (HcbB : 2 ^ Z.of_nat (carry_bits_exact M w) * B = 2 ^ Z.log2_up (2 * M)).
  { rewrite Hcb. unfold B. rewrite <- Z.pow_add_r by lia. f_equal. lia. }
  apply top_roomy; auto; try rewrite X1; try lia.
  - unfold group_size. rewrite X1. apply Nat.div_le_lower_bound; lia.
  - fold B. destruct (Z.le_gt_cases (2 * T) (2 ^ Z.of_nat (carry_bits_exact M w))) as [H|H].
    { replace (2 * M) with ((B - 1) * (2 * T)) by (unfold M; ring). apply Z.mul_le_mono_nonneg_l; lia. }
    exfalso. apply (Hgap (carry_bits_exact M w)); lia.
Qed.

Lemma gap_product w k e cb : let B := 2 ^ Z.of_nat w in let T := k * (B - 1) + e in
  1 <= k -> 4 * k < B -> 0 <= e <= 1 ->
  2 * ((B - 1) * T) <= 2 ^ Z.of_nat cb * B -> 2 ^ Z.of_nat cb < 2 * T -> False.
Proof.
  intros B T Hk HkB He H1 H2. set (P := 2 ^ Z.of_nat cb) in *.
  assert (HP : 2 * k * B - 4 * k <= P) by (unfold T in *; nia).
  assert (Hw : (w <= cb)%nat).
  { destruct (Nat.le_gt_cases w cb); auto. exfalso. assert (P < B) by (apply Z.pow_lt_mono_r; lia). nia. }
  pose proof (pow2_eq_mul _ _ Hw) as HE. fold B P in HE. set (Q := 2 ^ Z.of_nat (cb - w)) in *.
  assert (2 * k - 1 < Q) by nia. assert (Q < 2 * k) by (unfold T in *; nia). lia.
Qed.

Lemma room_product w k e : (1 <= w)%nat -> let B := 2 ^ Z.of_nat w in let M := k * (B - 1) * (B - 1) + e * (B - 1) in
  1 <= k -> 4 * k < B -> 0 <= e <= 1 -> 2 * M <= 2 ^ Z.of_nat CAPACITY -> exact_carries M w ->
  group_no_wrap M w /\ group_room M w.
Proof.
  intros Hw B M Hk HkB He. replace M with ((B - 1) * (k * (B - 1) + e)) by (unfold M; ring).
  intros Hc Hx. apply room_of_T; auto; [fold B; nia|]. fold B. intros cb. unfold B. now apply gap_product.
Qed.

Lemma room_linear w T : (2 <= w)%nat -> let B := 2 ^ Z.of_nat w in T = 1 \/ T = 2 ->
  2 * ((B - 1) * T) <= 2 ^ Z.of_nat CAPACITY -> exact_carries ((B - 1) * T) w ->
  group_no_wrap ((B - 1) * T) w /\ group_room ((B - 1) * T) w.
Proof.
  intros Hw B HT Hc Hx.
  assert (HB : 4 <= B) by (change 4 with (2 ^ Z.of_nat 2); apply Z.pow_le_mono_r; lia).
  apply room_of_T; auto; try lia. fold B. intros cb H1 H2.
  assert (H0 : (cb < 2)%nat). { destruct (Nat.lt_ge_cases cb 2); auto. exfalso.
    assert (2 ^ Z.of_nat 2 <= 2 ^ Z.of_nat cb) by (apply Z.pow_le_mono_r; lia). change (2 ^ Z.of_nat 2) with 4 in *. lia. }
  destruct cb as [|[|cb]]; [change (2 ^ Z.of_nat 0) with 1 in *|change (2 ^ Z.of_nat 1) with 2 in *|lia]; destruct HT; subst; lia.
Qed.

(** The words compared by the gadgets, for operands whose limbs have the recorded width. *)
Definition full_word (b : bignat) (w : nat) : Prop := limb_width (bparams b) = w /\ max_word (bparams b) = 2 ^ Z.of_nat w - 1.

Lemma word_mult w n m : (1 <= w)%nat -> (1 <= n)%nat -> (1 <= m)%nat -> let B := 2 ^ Z.of_nat w in
  Z.max (product_word n (B - 1) m (B - 1)) (B - 1) = Z.of_nat (Nat.min n m) * (B - 1) * (B - 1) + 0 * (B - 1).
Proof. intros Hw Hn Hm B. unfold product_word. assert (2 <= B) by (apply pow2_two; auto). nia. Qed.

Lemma word_mod w n m q l : (1 <= w)%nat -> (1 <= n)%nat -> (1 <= m)%nat -> (1 <= q)%nat -> (1 <= l)%nat -> let B := 2 ^ Z.of_nat w in
  let M := Z.max (product_word n (B - 1) m (B - 1)) (product_word q (B - 1) l (B - 1) + (B - 1)) in
  exists k e, M = k * (B - 1) * (B - 1) + e * (B - 1) /\ 0 <= e <= 1 /\
    k = Z.of_nat (Nat.max (Nat.min n m) (Nat.min q l)).
Proof.
  intros Hw Hn Hm Hq Hl B M. assert (HB : 2 <= B) by (apply pow2_two; auto). unfold M, product_word.
  set (D := B - 1). assert (HD : 1 <= D) by lia. clearbody D.
  assert (HDD : D <= D * D) by nia.
  destruct (Nat.le_gt_cases (Nat.min n m) (Nat.min q l)) as [H|H].
  - exists (Z.of_nat (Nat.min q l)), 1. split; [|lia]. set (x := Nat.min n m) in *. set (y := Nat.min q l) in *. clearbody x y.
    assert (Z.of_nat x * (D * D) <= Z.of_nat y * (D * D)) by (apply Z.mul_le_mono_nonneg_r; lia).
    rewrite <- !Z.mul_assoc. lia.
  - exists (Z.of_nat (Nat.min n m)), 0. split; [|lia]. set (x := Nat.min n m) in *. set (y := Nat.min q l) in *. clearbody x y.
    assert ((Z.of_nat y + 1) * (D * D) <= Z.of_nat x * (D * D)) by (apply Z.mul_le_mono_nonneg_r; lia).
    rewrite <- !Z.mul_assoc. lia.
Qed.

Lemma word_red w q l : (1 <= w)%nat -> (1 <= q)%nat -> (1 <= l)%nat -> let B := 2 ^ Z.of_nat w in
  Z.max (B - 1) (product_word q (B - 1) l (B - 1) + (B - 1)) = Z.of_nat (Nat.min q l) * (B - 1) * (B - 1) + 1 * (B - 1).
Proof. intros Hw Hq Hl B. unfold product_word. assert (2 <= B) by (apply pow2_two; auto). nia. Qed.

End Room.
