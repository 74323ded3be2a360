(** Arithmetic modulo the field prime. *)
From Coq Require Import ZArith Znumtheory Bool List Lia Setoid Morphisms ZifyBool.
From Verif.Model Require Import Base.
From Verif.Spec Require Import Spec.
Import ListNotations.
Local Open Scope Z_scope.

Section Field.
Context {E : Env} {W : Wf E}.

Lemma mod_pos : 0 < modulus.
Proof. pose proof wf_two; lia. Qed.
Lemma mod_nz : modulus <> 0.
Proof. pose proof wf_two; lia. Qed.
Hint Resolve mod_pos mod_nz : core.

(** Congruence. *)
Definition eqp (x y : Z) : Prop := (modulus | x - y).

Lemma eqp_mod x y : eqp x y <-> x mod modulus = y mod modulus.
Proof.
  unfold eqp. split.
  - intros [k Hk]. replace x with (y + k * modulus) by lia. now rewrite Z_mod_plus_full.
  - intros H. exists (x / modulus - y / modulus).
    rewrite (Z_div_mod_eq_full x modulus) at 1. rewrite (Z_div_mod_eq_full y modulus) at 1.
    rewrite H. ring.
Qed.
Lemma eqp_eq x y : eqp x y <-> fmk x = fmk y.
Proof. apply eqp_mod. Qed.

Global Instance eqp_equiv : Equivalence eqp.
Proof.
  split; red; intros *; rewrite !eqp_mod; congruence.
Qed.

Global Instance add_eqp : Proper (eqp ==> eqp ==> eqp) Z.add.
Proof. intros a b [k H] c d [k' H']. exists (k + k'). lia. Qed.
Global Instance opp_eqp : Proper (eqp ==> eqp) Z.opp.
Proof. intros a b [k H]. exists (- k). lia. Qed.
Global Instance sub_eqp : Proper (eqp ==> eqp ==> eqp) Z.sub.
Proof. intros a b [k H] c d [k' H']. exists (k - k'). lia. Qed.
Global Instance mul_eqp : Proper (eqp ==> eqp ==> eqp) Z.mul.
Proof.
  intros a b [k H] c d [k' H']. exists (k * c + b * k').
  replace (a * c - b * d) with ((a - b) * c + b * (c - d)) by ring. rewrite H, H'. ring.
Qed.
Global Instance fmk_eqp : Proper (eqp ==> eq) fmk.
Proof. intros a b H. now apply eqp_eq. Qed.

Lemma eqp_ring x y : x = y -> eqp x y.
Proof. intros ->; reflexivity. Qed.

Lemma eqp_fmk x : eqp (fmk x) x.
Proof. apply eqp_mod. apply Zmod_mod. Qed.

Lemma fmk_range x : 0 <= fmk x < modulus.
Proof. apply Z.mod_pos_bound; auto. Qed.
Lemma fmk_canon x : canon (fmk x).
Proof. apply fmk_range. Qed.
Lemma fmk_id x : canon x -> fmk x = x.
Proof. intros H; apply Z.mod_small; exact H. Qed.
Lemma fmk_small x : 0 <= x < modulus -> fmk x = x.
Proof. intros H; apply Z.mod_small; exact H. Qed.
Lemma fmk_fmk x : fmk (fmk x) = fmk x.
Proof. apply Zmod_mod. Qed.
Lemma fmk_0 : fmk 0 = 0.
Proof. apply Zmod_0_l. Qed.
Lemma fmk_1 : fmk 1 = 1.
Proof. apply fmk_small. pose proof wf_two; lia. Qed.
Lemma fone_1 : fone = 1.
Proof. apply fmk_1. Qed.


Lemma eqp_small x y : eqp x y -> 0 <= x < modulus -> 0 <= y < modulus -> x = y.
Proof. rewrite eqp_mod. intros H Hx Hy. rewrite !Z.mod_small in H; auto. Qed.

(** Congruent integers closer than the modulus are equal. *)
Lemma eqp_near x y : eqp x y -> - modulus < x - y < modulus -> x = y.
Proof.
  intros [k Hk] B. assert (k = 0) by nia. subst k. lia.
Qed.

Lemma eqp_div x y : eqp x y <-> exists k, x = y + k * modulus.
Proof.
  split; intros [k H]; exists k; lia.
Qed.

Lemma eqp_sub_0 x y : eqp (x - y) 0 <-> eqp x y.
Proof. unfold eqp. now rewrite Z.sub_0_r. Qed.

Lemma eqp_0_mul x y : eqp (x * y) 0 <-> eqp x 0 \/ eqp y 0.
Proof.
  unfold eqp. rewrite !Z.sub_0_r. split.
  - intros H. apply prime_mult; auto using wf_prime.
  - intros [H|H]; auto using Z.divide_mul_l, Z.divide_mul_r.
Qed.

Lemma eqp_cancel c x y : ~ eqp c 0 -> eqp (c * x) (c * y) -> eqp x y.
Proof.
  intros Hc H. apply (proj1 (eqp_sub_0 _ _)). apply (proj2 (eqp_sub_0 _ _)) in H.
  replace (c * x - c * y) with (c * (x - y)) in H by ring.
  apply eqp_0_mul in H. tauto.
Qed.

Lemma eqp_1_0 : ~ eqp 1 0.
Proof. rewrite eqp_mod, Zmod_0_l, Z.mod_small; pose proof wf_two; lia. Qed.

Lemma fmk_eq_0 x : fmk x = 0 <-> eqp x 0.
Proof. rewrite eqp_mod. unfold fmk. rewrite Zmod_0_l. tauto. Qed.

Lemma canon_eq0 x : canon x -> (eqp x 0 <-> x = 0).
Proof.
  intros H. split; [|intros ->; reflexivity].
  intros H'. apply eqp_small; auto. pose proof mod_pos; lia.
Qed.

(** A boolean constraint [b * (1 - b) = 0]. *)
Lemma bool_sol b : eqp (b * (1 - b)) 0 <-> eqp b 0 \/ eqp b 1.
Proof.
  rewrite eqp_0_mul. split; (intros [H|H]; [left; auto|right]).
  - symmetry. now apply (proj1 (eqp_sub_0 _ _)).
  - apply (proj2 (eqp_sub_0 _ _)). now symmetry.
Qed.

(** ** Inversion *)

Lemma egcd_spec fuel : forall r0 r1 s0 s1 a,
  0 < r0 -> 0 <= r1 <= r0 -> r0 * r1 < 2 ^ Z.of_nat fuel ->
  eqp (s0 * a) r0 -> eqp (s1 * a) r1 ->
  eqp (egcd fuel r0 r1 s0 s1 * a) (Z.gcd r0 r1).
Proof.
  induction fuel as [|fuel IH]; intros r0 r1 s0 s1 a H0 H1 Hm E0 E1.
  - assert (r1 = 0) by (change (2 ^ Z.of_nat 0) with 1 in Hm; nia). subst r1.
    simpl egcd. rewrite Z.gcd_0_r, Z.abs_eq by lia. exact E0.
  - simpl egcd. destruct (Z.eqb_spec r1 0) as [->|N].
    + rewrite Z.gcd_0_r, Z.abs_eq by lia. exact E0.
    + set (q := r0 / r1).
      assert (Hr : r0 - q * r1 = r0 mod r1).
      { unfold q. rewrite (Z.mod_eq r0 r1) by lia. ring. }
      assert (Hb : 0 <= r0 mod r1 < r1) by (apply Z.mod_pos_bound; lia).
      assert (Hq : 1 <= q) by (unfold q; apply Z.div_le_lower_bound; lia).
      replace (Z.gcd r0 r1) with (Z.gcd r1 (r0 - q * r1)).
      * apply IH; try lia.
        -- rewrite Nat2Z.inj_succ, Z.pow_succ_r in Hm by lia.
           assert (2 * (r0 - q * r1) <= r0) by nia. nia.
        -- exact E1.
        -- replace ((s0 - q * s1) * a) with (s0 * a - q * (s1 * a)) by ring.
           now rewrite E0, E1.
      * rewrite Hr. rewrite Z.gcd_comm. rewrite Z.gcd_mod by lia. apply Z.gcd_comm.
Qed.

Lemma num_bits_pos : 0 <= Z.log2 modulus.
Proof. apply Z.log2_nonneg. Qed.

Lemma modulus_bits : 2 ^ Z.of_nat CAPACITY <= modulus < 2 ^ Z.of_nat NUM_BITS.
Proof.
  unfold CAPACITY, NUM_BITS. simpl Nat.pred.
  rewrite Nat2Z.inj_succ, Z2Nat.id by apply num_bits_pos.
  apply Z.log2_spec. auto.
Qed.

Lemma num_bits_S : NUM_BITS = S CAPACITY.
Proof. reflexivity. Qed.

Lemma finvert_spec a : ~ eqp a 0 -> exists i, finvert a = Some i /\ canon i /\ eqp (a * i) 1.
Proof.
  intros H. unfold finvert.
  destruct (Z.eqb_spec (fmk a) 0) as [C|C]; [now apply fmk_eq_0 in C|].
  eexists; split; [reflexivity|]. split; [apply fmk_canon|].
  rewrite eqp_fmk, Z.mul_comm.
  pose proof (fmk_range a) as R.
  assert (G : Z.gcd modulus (fmk a) = 1).
  { apply Zgcd_1_rel_prime. apply rel_prime_sym. apply rel_prime_le_prime; [apply wf_prime|lia]. }
  transitivity (egcd (2 * NUM_BITS) modulus (fmk a) 0 1 * fmk a).
  { apply mul_eqp; [reflexivity|symmetry; apply eqp_fmk]. }
  transitivity (Z.gcd modulus (fmk a)); [|rewrite G; reflexivity]. apply egcd_spec; try lia.
  - pose proof modulus_bits. rewrite Nat2Z.inj_mul. change (Z.of_nat 2) with 2.
    rewrite Z.pow_mul_r by lia.
    replace ((2 ^ 2) ^ Z.of_nat NUM_BITS) with (2 ^ Z.of_nat NUM_BITS * 2 ^ Z.of_nat NUM_BITS).
    2:{ rewrite <- Z.pow_mul_l. reflexivity. }
    nia.
  - replace (0 * fmk a) with 0 by ring. exists (-1). ring.
  - replace (1 * fmk a) with (fmk a) by ring. reflexivity.
Qed.

Lemma finvert_zero a : eqp a 0 -> finvert a = None.
Proof.
  intros H. unfold finvert. apply fmk_eq_0 in H. rewrite H. reflexivity.
Qed.

(** ** Field operations as congruences *)
Lemma eqp_fadd a b : eqp (fadd a b) (a + b).
Proof. apply eqp_fmk. Qed.
Lemma eqp_fsub a b : eqp (fsub a b) (a - b).
Proof. apply eqp_fmk. Qed.
Lemma eqp_fmul a b : eqp (fmul a b) (a * b).
Proof. apply eqp_fmk. Qed.
Lemma eqp_fdouble a : eqp (fdouble a) (2 * a).
Proof. unfold fdouble. rewrite eqp_fmk. apply eqp_ring; ring. Qed.
Lemma eqp_fone : eqp fone 1.
Proof. apply eqp_fmk. Qed.
Lemma fadd_canon a b : canon (fadd a b).
Proof. apply fmk_canon. Qed.
Lemma fsub_canon a b : canon (fsub a b).
Proof. apply fmk_canon. Qed.
Lemma fmul_canon a b : canon (fmul a b).
Proof. apply fmk_canon. Qed.
Lemma fdouble_canon a : canon (fdouble a).
Proof. apply fmk_canon. Qed.
Lemma fone_canon : canon fone.
Proof. apply fmk_canon. Qed.
Lemma canon_0 : canon 0.
Proof. red. pose proof mod_pos; lia. Qed.
Lemma canon_1 : canon 1.
Proof. red. pose proof wf_two; lia. Qed.

Lemma canon_eqp x y : canon x -> canon y -> eqp x y -> x = y.
Proof. intros; eapply eqp_small; eauto. Qed.

End Field.

(** Rewrite field operations into integer arithmetic under congruences. *)
Ltac feq := rewrite ?eqp_fadd, ?eqp_fsub, ?eqp_fmul, ?eqp_fdouble, ?eqp_fone, ?eqp_fmk.
Ltac ering := apply eqp_ring; ring.
