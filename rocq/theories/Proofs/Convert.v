(** src/lib.rs and src/util/convert.rs: representations, bits, decimal strings. *)
From Coq Require Import ZArith Znumtheory Bool String Ascii List Lia ZifyBool ZifyNat.
From Coq Require Import Decimal DecimalFacts DecimalPos DecimalZ DecimalString.
From Verif.Model Require Import Base CS Util.
From Verif.Spec Require Import Spec.
From Verif.Proofs Require Import Field Arith.
Import ListNotations.
Local Open Scope Z_scope.

(** ** Bytes *)
Lemma from_bytes_value bs : from_bytes_le bs = value_of 256 bs.
Proof. induction bs; cbn [from_bytes_le value_of]; congruence. Qed.
Lemma le_bytes_length n : forall x, List.length (le_bytes n x) = n.
Proof. induction n; intros; simpl; auto. Qed.
Lemma le_bytes_value n : forall x, value_of 256 (le_bytes n x) = x mod 256 ^ Z.of_nat n.
Proof.
  induction n; intros x.
  - simpl. now rewrite Z.mod_1_r.
  - cbn [le_bytes value_of]. rewrite IHn, pow_S.
    assert (0 < 256 ^ Z.of_nat n) by (apply Z.pow_pos_nonneg; lia).
    rewrite Z.rem_mul_r by lia. reflexivity.
Qed.
Lemma le_bytes_range n : forall x, Forall (fun d => 0 <= d < 256) (le_bytes n x).
Proof. induction n; intros; simpl; constructor; auto. apply Z.mod_pos_bound; lia. Qed.
Lemma le_bytes_nth n : forall x i, (i < n)%nat ->
  nth_error (le_bytes n x) i = Some ((x / 256 ^ Z.of_nat i) mod 256).
Proof.
  induction n; intros x i Hi; [lia|]. destruct i as [|i]; simpl nth_error.
  - now rewrite Z.div_1_r.
  - rewrite IHn by lia. rewrite pow_S.
    assert (0 < 256 ^ Z.of_nat i) by (apply Z.pow_pos_nonneg; lia).
    rewrite Z.div_div by lia. reflexivity.
Qed.

(** ** Decimal strings *)
Lemma digit_value_spec (n : nat) : (n < 10)%nat ->
  digit_value (ascii_of_nat (48 + n)) = Some (Z.of_nat n).
Proof. intros H. do 10 (destruct n as [|n]; [reflexivity|]). lia. Qed.

Section Convert.
Context {E : Env} {W : Wf E}.

Lemma even_modulus : ~ (2 | modulus).
Proof.
  intros H. pose proof wf_two. apply (prime_divisors _ wf_prime) in H. lia.
Qed.

Lemma modulus_repr_lt : modulus < 256 ^ Z.of_nat repr_len.
Proof.
  pose proof wf_repr as H. pose proof wf_two as T.
  destruct (Z.eq_dec modulus (256 ^ Z.of_nat repr_len)) as [Eq|]; [|lia].
  exfalso. apply even_modulus. rewrite Eq. destruct repr_len as [|n].
  - simpl in Eq. lia.
  - rewrite pow_S. exists (128 * 256 ^ Z.of_nat n). ring.
Qed.

Lemma f_to_nat_canon f : canon f -> f_to_nat f = f.
Proof.
  intros [H1 H2]. unfold f_to_nat, to_repr. rewrite from_bytes_value, le_bytes_value.
  apply Z.mod_small. pose proof modulus_repr_lt. lia.
Qed.

(** Digits of a decimal numeral, read left to right. *)
Lemma digits_uint d : forall acc, from_str_digits (NilEmpty.string_of_uint d) acc =
  Some (if (nb_digits d =? 0)%nat then acc else
        fmk (acc * 10 ^ Z.of_nat (nb_digits d) + Z.of_uint d)).
Proof.
  assert (U : forall d p, Z.pos (Pos.of_uint_acc d p) =
                 Z.pos p * 10 ^ Z.of_nat (nb_digits d) + Z.of_uint d).
  { clear. unfold Z.of_uint.
    assert (K : forall d p, Z.pos (Pos.of_uint_acc d p) =
                 Z.pos p * 10 ^ Z.of_nat (nb_digits d) + Z.of_N (Pos.of_uint d)); auto.
    induction d; intros p; cbn [Pos.of_uint_acc nb_digits Pos.of_uint];
      [change (10 ^ Z.of_nat 0) with 1; simpl; lia|..];
      rewrite pow_S, ?IHd; cbn [Z.of_N]; rewrite ?IHd; nia. }
  assert (ST : forall c k d acc, digit_value c = Some k ->
     (forall acc, from_str_digits (NilEmpty.string_of_uint d) acc =
       Some (if (nb_digits d =? 0)%nat then acc else
        fmk (acc * 10 ^ Z.of_nat (nb_digits d) + Z.of_uint d))) ->
     from_str_digits (String c (NilEmpty.string_of_uint d)) acc =
     Some (fmk (acc * 10 ^ Z.of_nat (S (nb_digits d)) +
                (k * 10 ^ Z.of_nat (nb_digits d) + Z.of_uint d)))).
  { intros c k d0 acc Hc IH. cbn [from_str_digits]. rewrite Hc, IH. f_equal.
    rewrite pow_S. destruct (Nat.eqb_spec (nb_digits d0) 0) as [Z0|Z0].
    - destruct d0; try discriminate. rewrite Z0. change (10 ^ Z.of_nat 0) with 1.
      change (Z.of_uint Nil) with 0.
      apply eqp_eq. unfold from_u64. feq. ering.
    - apply eqp_eq. unfold from_u64. feq. ering. }
  induction d; intros acc; cbn [NilEmpty.string_of_uint].
  - reflexivity.
  - erewrite ST; [|reflexivity|exact IHd]. cbn [nb_digits Nat.eqb]. do 2 f_equal.
  - erewrite ST; [|reflexivity|exact IHd]. cbn [nb_digits Nat.eqb]. do 3 f_equal.
    unfold Z.of_uint at 2. cbn [Pos.of_uint Z.of_N]. now rewrite U.
  - erewrite ST; [|reflexivity|exact IHd]. cbn [nb_digits Nat.eqb]. do 3 f_equal.
    unfold Z.of_uint at 2. cbn [Pos.of_uint Z.of_N]. now rewrite U.
  - erewrite ST; [|reflexivity|exact IHd]. cbn [nb_digits Nat.eqb]. do 3 f_equal.
    unfold Z.of_uint at 2. cbn [Pos.of_uint Z.of_N]. now rewrite U.
  - erewrite ST; [|reflexivity|exact IHd]. cbn [nb_digits Nat.eqb]. do 3 f_equal.
    unfold Z.of_uint at 2. cbn [Pos.of_uint Z.of_N]. now rewrite U.
  - erewrite ST; [|reflexivity|exact IHd]. cbn [nb_digits Nat.eqb]. do 3 f_equal.
    unfold Z.of_uint at 2. cbn [Pos.of_uint Z.of_N]. now rewrite U.
  - erewrite ST; [|reflexivity|exact IHd]. cbn [nb_digits Nat.eqb]. do 3 f_equal.
    unfold Z.of_uint at 2. cbn [Pos.of_uint Z.of_N]. now rewrite U.
  - erewrite ST; [|reflexivity|exact IHd]. cbn [nb_digits Nat.eqb]. do 3 f_equal.
    unfold Z.of_uint at 2. cbn [Pos.of_uint Z.of_N]. now rewrite U.
  - erewrite ST; [|reflexivity|exact IHd]. cbn [nb_digits Nat.eqb]. do 3 f_equal.
    unfold Z.of_uint at 2. cbn [Pos.of_uint Z.of_N]. now rewrite U.
  - erewrite ST; [|reflexivity|exact IHd]. cbn [nb_digits Nat.eqb]. do 3 f_equal.
    unfold Z.of_uint at 2. cbn [Pos.of_uint Z.of_N]. now rewrite U.
Qed.

Lemma pos_to_uint_head p d : Pos.to_uint p <> D0 d.
Proof.
  intros H. pose proof (DecimalPos.Unsigned.to_of (Pos.to_uint p)) as T.
  rewrite DecimalPos.Unsigned.of_to in T. simpl in T.
  rewrite H in T. unfold unorm in T. cbn [nzhead] in T.
  destruct (nzhead d) eqn:N; try discriminate.
  - injection T as T. subst d.
    apply (DecimalPos.Unsigned.to_uint_nonzero p). exact H.
  - apply (nzhead_nonzero d u). exact N.
Qed.

Theorem nat_to_f_spec n : nat_to_f n = if n <? 0 then None else Some (fmk n).
Proof.
  unfold nat_to_f, bigint_display. destruct n as [|p|p].
  - simpl. now rewrite fmk_0.
  - change (Z.pos p <? 0) with false. cbn [Z.to_int].
    assert (Hz : Z.of_uint (Pos.to_uint p) = Z.pos p).
    { unfold Z.of_uint. now rewrite DecimalPos.Unsigned.of_to. }
    pose proof (DecimalPos.Unsigned.to_uint_nonnil p) as Hn.
    pose proof (pos_to_uint_head p) as Hh.
    cbn [NilZero.string_of_int].
    pose proof (digits_uint (Pos.to_uint p) fzero) as D. rewrite Hz in D.
    destruct (Pos.to_uint p) as [|d|d|d|d|d|d|d|d|d|d] eqn:EqP;
      [congruence|exfalso; eapply Hh; eauto|..]; cbn [nb_digits Nat.eqb] in D;
      unfold fzero in D; rewrite Z.mul_0_l, Z.add_0_l in D; rewrite <- D; reflexivity.
  - reflexivity.
Qed.

Lemma nat_to_f_nonneg n : 0 <= n -> nat_to_f n = Some (fmk n).
Proof. intros H. rewrite nat_to_f_spec. destruct (Z.ltb_spec n 0); auto; lia. Qed.
Lemma nat_to_f_neg n : n < 0 -> nat_to_f n = None.
Proof. intros H. rewrite nat_to_f_spec. destruct (Z.ltb_spec n 0); auto; lia. Qed.

(** ** Round trips (C01) *)
Lemma nat_f_nat n : 0 <= n < modulus -> exists f, nat_to_f n = Some f /\ canon f /\ f_to_nat f = n.
Proof.
  intros H. exists n. rewrite nat_to_f_nonneg, fmk_small by lia.
  split; auto. split; [exact H|]. now apply f_to_nat_canon.
Qed.
Lemma f_nat_f f : canon f -> nat_to_f (f_to_nat f) = Some f.
Proof.
  intros H. rewrite f_to_nat_canon by auto. rewrite nat_to_f_nonneg by apply H.
  now rewrite fmk_id.
Qed.

(** ** Small conversions (C03) *)
Lemma f_to_usize_spec f : canon f -> f_to_usize f = if f <? 256 then Ok f else Panic.
Proof.
  intros [H1 H2]. pose proof modulus_repr_lt as M. unfold f_to_usize, to_repr, idx.
  destruct repr_len as [|n] eqn:R; [pose proof wf_two; simpl in M; lia|].
  cbn [le_bytes skipn nth_error unwrap].
  assert (Z0 : forall k y, 0 <= y < 256 ^ Z.of_nat k ->
     forallb (fun b => b =? 0) (le_bytes k y) = (y =? 0)).
  { clear. induction k; intros y Hy.
    - simpl in *. change (256 ^ 0) with 1 in Hy. lia.
    - cbn [le_bytes forallb]. rewrite IHk.
      + pose proof (Z.div_mod y 256). rewrite pow_S in Hy. lia.
      + rewrite pow_S in Hy. split; [apply Z.div_pos; lia|apply Z.div_lt_upper_bound; lia]. }
  rewrite Z0.
  - destruct (Z.ltb_spec f 256) as [L|L].
    + rewrite Z.div_small, Z.mod_small by lia. reflexivity.
    + destruct (Z.eqb_spec (f / 256) 0) as [D|D]; auto.
      pose proof (Z.div_mod f 256). lia.
  - rewrite pow_S in M. split; [apply Z.div_pos; lia|apply Z.div_lt_upper_bound; lia].
Qed.

(** ** get_bit (C04) *)
Lemma bit_byte x k j : 0 <= x -> 0 <= k -> 0 <= j < 8 ->
  (Z.land (Z.shiftr ((x / 256 ^ k) mod 256) j) 1 =? 1) = Z.testbit x (8 * k + j).
Proof.
  intros Hx Hk Hj.
  change 256 with (2 ^ 8). rewrite <- Z.pow_mul_r by lia.
  rewrite <- Z.shiftr_div_pow2, <- Z.land_ones by lia.
  assert (T : Z.testbit (Z.shiftr (Z.land (Z.shiftr x (8 * k)) (Z.ones 8)) j) 0
              = Z.testbit x (8 * k + j)).
  { rewrite Z.shiftr_spec, Z.land_spec, Z.shiftr_spec, Z.ones_spec_low by lia.
    rewrite andb_true_r. f_equal. lia. }
  rewrite <- T. set (y := Z.shiftr (Z.land (Z.shiftr x (8 * k)) (Z.ones 8)) j).
  change 1 with (Z.ones 1) at 1. rewrite Z.land_ones by lia. change (2 ^ 1) with 2.
  rewrite Z.bit0_odd, Zmod_odd. destruct (Z.odd y); reflexivity.
Qed.

Lemma bits_repr : (CAPACITY < 8 * repr_len)%nat.
Proof.
  pose proof modulus_bits as [H _]. pose proof modulus_repr_lt as M.
  change 256 with (2 ^ 8) in M. rewrite <- Z.pow_mul_r in M by lia.
  assert (2 ^ Z.of_nat CAPACITY < 2 ^ (8 * Z.of_nat repr_len)) by lia.
  apply Z.pow_lt_mono_r_iff in H0; lia.
Qed.

Lemma get_bit_in x i : canon x -> Z.of_nat i < 2 ^ 32 -> (i < NUM_BITS)%nat ->
  get_bit x i = Ok (Some (Z.testbit x (Z.of_nat i))).
Proof.
  intros Hx Hi Hn. unfold get_bit. change 4294967296 with (2 ^ 32).
  rewrite Z.mod_small by lia.
  destruct (Z.leb_spec (Z.of_nat NUM_BITS) (Z.of_nat i)); [lia|].
  pose proof bits_repr. rewrite num_bits_S in Hn.
  assert (Hq : (i / 8 < repr_len)%nat).
  { apply Nat.div_lt_upper_bound; lia. }
  unfold idx, to_repr. rewrite le_bytes_nth by auto. cbn [unwrap rbind].
  do 2 f_equal. destruct Hx. rewrite bit_byte by lia.
  f_equal. lia.
Qed.

Lemma get_bit_out x i : Z.of_nat i < 2 ^ 32 -> (NUM_BITS <= i)%nat -> get_bit x i = Ok None.
Proof.
  intros Hi Hn. unfold get_bit. change 4294967296 with (2 ^ 32).
  rewrite Z.mod_small by lia.
  destruct (Z.leb_spec (Z.of_nat NUM_BITS) (Z.of_nat i)); [auto|lia].
Qed.

Lemma get_bits_value x : canon x ->
  bits_value (map (fun i => Z.testbit x (Z.of_nat i)) (seq 0 NUM_BITS)) = x.
Proof.
  intros Hx. rewrite testbits_value_0 by apply Hx. apply Z.mod_small.
  pose proof modulus_bits. destruct Hx. lia.
Qed.

End Convert.
