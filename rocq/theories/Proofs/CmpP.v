(** The comparisons on every pair of operands and every width. *)
From Coq Require Import ZArith Znumtheory Bool List Lia Setoid Morphisms.
From Verif.Model Require Import Base CS Bellpepper Util Poly Bignat Ints Median Fields.
From Verif.Spec Require Import Spec.
From Verif.Proofs Require Import Field Arith Convert Limbs Wp Lc BitNum BoolP BignatEq TopBignat1 Owp Shp TopBignat3 PrimeFields MedianP MedianV TopMedian MedianEx.
Import ListNotations.
Local Open Scope Z_scope.

Section Cmp.
Context {E : Env} {W : Wf E}.

Lemma zero_shift_253 : zero_shift 253 = Ok (fmk 0).
Proof.
  unfold zero_shift. rewrite (proj2 (Nat.leb_gt _ _)) by lia. unfold u128_shl, shl, amount.
  rewrite (proj2 (Z.ltb_lt _ _)) by lia. cbn [rbind]. change (Z.shiftl 2 (Z.of_nat (253 - 126)) mod two_to 128) with 0.
  cbn [rbind Z.ltb Z.compare Pos.compare Pos.compare_cont]. unfold fmul, from_u128. f_equal. apply eqp_eq.
  rewrite !eqp_fmk. rewrite Z.mul_0_r. reflexivity.
Qed.
Lemma zero_shift_panics n : (254 <= n)%nat -> overflow_checks = true -> zero_shift n = Panic.
Proof.
  intros Hn Ho. unfold zero_shift. rewrite (proj2 (Nat.leb_gt _ _)) by lia. unfold u128_shl, shl, amount.
  rewrite (proj2 (Z.ltb_ge _ _)) by lia. rewrite Ho. reflexivity.
Qed.

(** The shift constant [zero_shift] of a width up to 253. *)
Definition shift_of (n : nat) : Z :=
  if (n <=? 126)%nat then 2 ^ (Z.of_nat n + 1) else if (n <=? 252)%nat then 2 ^ (Z.of_nat n + 2) else 0.
Lemma zero_shift_ok n : (n <= 253)%nat -> zero_shift n = Ok (fmk (shift_of n)).
Proof.
  intros Hn. unfold shift_of. destruct (Nat.leb_spec n 126); [now apply zero_shift_low|].
  destruct (Nat.leb_spec n 252); [apply zero_shift_high; lia|]. replace n with 253%nat by lia. apply zero_shift_253.
Qed.

Lemma cmp_arg x y S k : fsub (fadd x (fmk S)) (fadd y k) = (x - y - k + S) mod modulus.
Proof. change ((x - y - k + S) mod modulus) with (fmk (x - y - k + S)). unfold fsub, fadd. apply eqp_eq. rewrite !eqp_fmk. ering. Qed.
Lemma cmp_arg0 x y S : fsub (fadd x (fmk S)) y = (x - y + S) mod modulus.
Proof. change ((x - y + S) mod modulus) with (fmk (x - y + S)). unfold fsub, fadd. apply eqp_eq. rewrite !eqp_fmk. ering. Qed.

Lemma top_less_than_any a b x y n s : good s -> an_at s a x -> an_at s b y -> (n < NUM_BITS)%nat -> (n <= 253)%nat ->
  exists r s', run true (less_than a b n) s = (Ok r, s') /\ good s' /\
    boolean_at s' r ((x - y + (if (n <=? 126)%nat then 2 ^ (Z.of_nat n + 1) else if (n <=? 252)%nat then 2 ^ (Z.of_nat n + 2) else 0))
                     mod modulus <? 2 ^ (Z.of_nat n + 1)).
Proof.
  intros G Ha Hb HN Hn. fold (shift_of n).
  destruct (hwp_run (less_than a b n) s (fun rho r => is_bool rho r ((x - y + shift_of n) mod modulus <? 2 ^ (Z.of_nat n + 1))) G)
    as (r & s' & Hr & Hg & _ & HQ').
  { intros rho Hag one. pose proof (an_at_is _ _ _ _ Ha Hag one) as Ia. pose proof (an_at_is _ _ _ _ Hb Hag one) as Ib.
    eapply hwp_mono; [apply (less_than_hwp rho one a b n _ _ _ Ia Ib (zero_shift_ok n Hn) HN)|].
    cbv beta. intros r. rewrite cmp_arg0. replace (Z.of_nat (1 + n)) with (Z.of_nat n + 1) by lia. auto. }
  exists r, s'. split; auto. split; auto. apply is_boolean_at. exact HQ'.
Qed.
Lemma top_leq_any a b x y n s : good s -> an_at s a x -> an_at s b y -> (n < NUM_BITS)%nat -> (n <= 253)%nat ->
  exists r s', run true (leq a b n) s = (Ok r, s') /\ good s' /\
    boolean_at s' r ((x - y - 1 + (if (n <=? 126)%nat then 2 ^ (Z.of_nat n + 1) else if (n <=? 252)%nat then 2 ^ (Z.of_nat n + 2) else 0))
                     mod modulus <? 2 ^ (Z.of_nat n + 1)).
Proof.
  intros G Ha Hb HN Hn. fold (shift_of n).
  destruct (hwp_run (leq a b n) s (fun rho r => is_bool rho r ((x - y - 1 + shift_of n) mod modulus <? 2 ^ (Z.of_nat n + 1))) G)
    as (r & s' & Hr & Hg & _ & HQ').
  { intros rho Hag one. pose proof (an_at_is _ _ _ _ Ha Hag one) as Ia. pose proof (an_at_is _ _ _ _ Hb Hag one) as Ib.
    eapply hwp_mono; [apply (leq_hwp rho one a b n _ _ _ Ia Ib (zero_shift_ok n Hn) HN)|].
    cbv beta. intros r. rewrite fone_1, cmp_arg. replace (Z.of_nat (1 + n)) with (Z.of_nat n + 1) by lia. auto. }
  exists r, s'. split; auto. split; auto. apply is_boolean_at. exact HQ'.
Qed.

(** The residue condition as intervals. *)
Lemma mod_window d S M : 0 <= S -> 0 < M <= S -> S <= modulus -> - modulus <= d < modulus ->
  ((d + S) mod modulus < M <-> - S <= d < M - S \/ modulus - S <= d < modulus + M - S).
Proof.
  intros HS HM HP Hd. pose proof wf_two.
  destruct (Z.lt_ge_cases (d + S) 0).
  - replace ((d + S) mod modulus) with (d + S + modulus). 2:{ apply Z.mod_unique with (-1); lia. } lia.
  - destruct (Z.lt_ge_cases (d + S) modulus).
    + rewrite Z.mod_small by lia. lia.
    + replace ((d + S) mod modulus) with (d + S - modulus); [lia|]. apply Z.mod_unique with 1; lia.
Qed.

Lemma top_less_than_when a b x y n s : good s -> an_at s a x -> an_at s b y -> (n <= 126)%nat -> 2 ^ (Z.of_nat n + 1) <= modulus ->
  exists r s' v, run true (less_than a b n) s = (Ok r, s') /\ good s' /\ boolean_at s' r v /\
    (v = true <-> x < y <= x + 2 ^ (Z.of_nat n + 1) \/ modulus - 2 ^ (Z.of_nat n + 1) <= x - y).
Proof.
  intros G Ha Hb Hn HP. assert (Cx : canon x) by apply Ha. assert (Cy : canon y) by apply Hb. destruct Cx, Cy.
  assert (HM : 2 ^ (Z.of_nat n + 1) = 2 * 2 ^ Z.of_nat n) by (rewrite Z.pow_add_r by lia; ring). pose proof (pow2_pos n).
  assert (HN : (n < NUM_BITS)%nat) by (apply num_bits_above; lia).
  destruct (top_less_than_any a b x y n s G Ha Hb HN ltac:(lia)) as (r & s' & R1 & R2 & R3).
  rewrite (proj2 (Nat.leb_le n 126)) in R3 by lia.
  exists r, s', ((x - y + 2 ^ (Z.of_nat n + 1)) mod modulus <? 2 ^ (Z.of_nat n + 1)). split; auto. split; auto. split; auto.
  rewrite Z.ltb_lt, (mod_window (x - y) (2 ^ (Z.of_nat n + 1)) (2 ^ (Z.of_nat n + 1))) by lia. lia.
Qed.
Lemma top_leq_when a b x y n s : good s -> an_at s a x -> an_at s b y -> (n <= 126)%nat -> 2 ^ (Z.of_nat n + 1) <= modulus ->
  exists r s' v, run true (leq a b n) s = (Ok r, s') /\ good s' /\ boolean_at s' r v /\
    (v = true <-> x <= y < x + 2 ^ (Z.of_nat n + 1) \/ modulus - 2 ^ (Z.of_nat n + 1) < x - y).
Proof.
  intros G Ha Hb Hn HP. assert (Cx : canon x) by apply Ha. assert (Cy : canon y) by apply Hb. destruct Cx, Cy.
  assert (HM : 2 ^ (Z.of_nat n + 1) = 2 * 2 ^ Z.of_nat n) by (rewrite Z.pow_add_r by lia; ring). pose proof (pow2_pos n).
  assert (HN : (n < NUM_BITS)%nat) by (apply num_bits_above; lia).
  destruct (top_leq_any a b x y n s G Ha Hb HN ltac:(lia)) as (r & s' & R1 & R2 & R3).
  rewrite (proj2 (Nat.leb_le n 126)) in R3 by lia.
  exists r, s', ((x - y - 1 + 2 ^ (Z.of_nat n + 1)) mod modulus <? 2 ^ (Z.of_nat n + 1)). split; auto. split; auto. split; auto.
  rewrite Z.ltb_lt, (mod_window (x - y - 1) (2 ^ (Z.of_nat n + 1)) (2 ^ (Z.of_nat n + 1))) by lia. lia.
Qed.
Lemma top_less_than_when_wide a b x y n s : good s -> an_at s a x -> an_at s b y -> (127 <= n <= 252)%nat -> 2 ^ (Z.of_nat n + 2) <= modulus ->
  exists r s' v, run true (less_than a b n) s = (Ok r, s') /\ good s' /\ boolean_at s' r v /\
    (v = true <-> x + 2 ^ (Z.of_nat n + 1) < y <= x + 2 ^ (Z.of_nat n + 2) \/
                  modulus - 2 ^ (Z.of_nat n + 2) <= x - y < modulus - 2 ^ (Z.of_nat n + 1)).
Proof.
  intros G Ha Hb Hn HP. assert (Cx : canon x) by apply Ha. assert (Cy : canon y) by apply Hb. destruct Cx, Cy.
  assert (HM : 2 ^ (Z.of_nat n + 1) = 2 * 2 ^ Z.of_nat n) by (rewrite Z.pow_add_r by lia; ring).
  assert (HM2 : 2 ^ (Z.of_nat n + 2) = 4 * 2 ^ Z.of_nat n) by (rewrite Z.pow_add_r by lia; ring). pose proof (pow2_pos n).
  assert (HN : (n < NUM_BITS)%nat) by (apply num_bits_above; lia).
  destruct (top_less_than_any a b x y n s G Ha Hb HN ltac:(lia)) as (r & s' & R1 & R2 & R3).
  rewrite (proj2 (Nat.leb_gt n 126)), (proj2 (Nat.leb_le n 252)) in R3 by lia.
  exists r, s', ((x - y + 2 ^ (Z.of_nat n + 2)) mod modulus <? 2 ^ (Z.of_nat n + 1)). split; auto. split; auto. split; auto.
  rewrite Z.ltb_lt, (mod_window (x - y) (2 ^ (Z.of_nat n + 2)) (2 ^ (Z.of_nat n + 1))) by lia. lia.
Qed.
Lemma top_leq_when_wide a b x y n s : good s -> an_at s a x -> an_at s b y -> (127 <= n <= 252)%nat -> 2 ^ (Z.of_nat n + 2) <= modulus ->
  exists r s' v, run true (leq a b n) s = (Ok r, s') /\ good s' /\ boolean_at s' r v /\
    (v = true <-> x + 2 ^ (Z.of_nat n + 1) <= y < x + 2 ^ (Z.of_nat n + 2) \/
                  modulus - 2 ^ (Z.of_nat n + 2) < x - y <= modulus - 2 ^ (Z.of_nat n + 1)).
Proof.
  intros G Ha Hb Hn HP. assert (Cx : canon x) by apply Ha. assert (Cy : canon y) by apply Hb. destruct Cx, Cy.
  assert (HM : 2 ^ (Z.of_nat n + 1) = 2 * 2 ^ Z.of_nat n) by (rewrite Z.pow_add_r by lia; ring).
  assert (HM2 : 2 ^ (Z.of_nat n + 2) = 4 * 2 ^ Z.of_nat n) by (rewrite Z.pow_add_r by lia; ring). pose proof (pow2_pos n).
  assert (HN : (n < NUM_BITS)%nat) by (apply num_bits_above; lia).
  destruct (top_leq_any a b x y n s G Ha Hb HN ltac:(lia)) as (r & s' & R1 & R2 & R3).
  rewrite (proj2 (Nat.leb_gt n 126)), (proj2 (Nat.leb_le n 252)) in R3 by lia.
  exists r, s', ((x - y - 1 + 2 ^ (Z.of_nat n + 2)) mod modulus <? 2 ^ (Z.of_nat n + 1)). split; auto. split; auto. split; auto.
  rewrite Z.ltb_lt, (mod_window (x - y - 1) (2 ^ (Z.of_nat n + 2)) (2 ^ (Z.of_nat n + 1))) by lia. lia.
Qed.

(** Widths of 254 bits and more. *)
Lemma top_cmp_254 a b x y n s : good s -> an_at s a x -> an_at s b y -> (254 <= n)%nat -> overflow_checks = true ->
  fst (run true (less_than a b n) s) = Panic /\ fst (run true (leq a b n) s) = Panic.
Proof.
  intros G (Va & _) (Vb & _) Hn Ho. split; apply (owp_result _ s (fun r => r = Panic) G); intros rho _ _; unfold less_than, leq; rewrite Va, Vb;
    cbn [unwrap rbind]; rewrite (zero_shift_panics n Hn Ho); cbn [rbind].
  all: cbn; auto.
Qed.

(** One bit below the field's bit length every pair is accepted. *)
Lemma zero_shift_any n : (n <= 253)%nat \/ overflow_checks = false -> exists S, zero_shift n = Ok S.
Proof.
  intros [H|H]; [rewrite zero_shift_ok by auto; eauto|].
  unfold zero_shift. destruct (n <=? 126)%nat; unfold u128_shl, shl, amount; rewrite H; repeat destruct (_ <? _); cbn [rbind]; eauto.
Qed.
Lemma top_cmp_last (a b : allocated_num) (x y : Z) (n : nat) (s : st) : good s -> an_at s a x -> an_at s b y -> S n = NUM_BITS -> (n <= 253)%nat \/ overflow_checks = false ->
  (exists r s', run true (less_than a b n) s = (Ok r, s') /\ good s' /\ boolean_at s' r true) /\
  (exists r s', run true (leq a b n) s = (Ok r, s') /\ good s' /\ boolean_at s' r true).
Proof.
  intros G Ha Hb HN Ho. destruct (zero_shift_any n Ho) as [S0 HS].
  assert (HB : forall v, canon v -> (v <? 2 ^ Z.of_nat (1 + n)) = true).
  { intros v [_ Hv]. apply Z.ltb_lt. change (1 + n)%nat with (S n). rewrite HN. pose proof modulus_bits. lia. }
  split.
  - destruct (hwp_run (less_than a b n) s (fun rho r => is_bool rho r true) G) as (r & s' & Hr & Hg & _ & HQ').
    { intros rho Hag one. pose proof (an_at_is _ _ _ _ Ha Hag one) as Ia. pose proof (an_at_is _ _ _ _ Hb Hag one) as Ib.
      eapply hwp_mono; [apply (less_than_hwp rho one a b n _ _ _ Ia Ib HS); lia|].
      cbv beta. intros r. rewrite HB by apply fsub_canon. auto. }
    exists r, s'. split; auto. split; auto. apply is_boolean_at. exact HQ'.
  - destruct (hwp_run (leq a b n) s (fun rho r => is_bool rho r true) G) as (r & s' & Hr & Hg & _ & HQ').
    { intros rho Hag one. pose proof (an_at_is _ _ _ _ Ha Hag one) as Ia. pose proof (an_at_is _ _ _ _ Hb Hag one) as Ib.
      eapply hwp_mono; [apply (leq_hwp rho one a b n _ _ _ Ia Ib HS); lia|].
      cbv beta. intros r. rewrite HB by apply fsub_canon. auto. }
    exists r, s'. split; auto. split; auto. apply is_boolean_at. exact HQ'.
Qed.

End Cmp.

(** Some instances. *)
Lemma after_two {E : Env} {W : Wf E} (m : allocated_num -> allocated_num -> prog Boolean) x y (P : res Boolean -> st -> Prop) : canon x -> canon y ->
  (forall a b s, good s -> an_at s a x -> an_at s b y -> P (fst (run true (m a b) s)) (snd (run true (m a b) s))) ->
  let '(r, s') := run true (let! a := an_alloc (Ok x) in let! b := an_alloc (Ok y) in m a b) st_init in P r s'.
Proof.
  intros Cx Cy H. destruct (@two_nums E W x y Cx Cy) as (a & b & s & H1 & H2 & H3 & H4).
  rewrite run_bind in H1. rewrite run_bind. destruct (run true (an_alloc (Ok x)) st_init) as [[a0| |] s0]; try discriminate.
  rewrite run_bind in H1. rewrite run_bind. destruct (run true (an_alloc (Ok y)) s0) as [[b0| |] s1]; try discriminate.
  cbn [run] in H1. injection H1 as <- <- <-. specialize (H a0 b0 s1 H2 H3 H4). destruct (run true (m a0 b0) s1). exact H.
Qed.
(** At 224 bits in the Pallas scalar field, the width of the proof-of-work check, the answer to 0 < 2^225 + 1 is yes. *)
Lemma C96_witness : let E := pallas_env true in
  let '(r, _) := run true (
     let! a := an_alloc (Ok 0) in
     let! b := an_alloc (Ok (2 ^ 225 + 1)) in
     less_than a b 224) st_init in
  exists b, r = Ok b /\ bool_val b = Some true.
Proof.
  intros E. pose proof (wf_pallas true) as W. fold E in W.
  apply (@after_two E W (fun a b => less_than a b 224) 0 (2 ^ 225 + 1) (fun r _ => exists b, r = Ok b /\ bool_val b = Some true));
    [split; [discriminate|reflexivity]..|].
  intros a b s G Ha Hb. destruct (@top_less_than_any E W a b 0 (2 ^ 225 + 1) 224 s G Ha Hb) as (r & s' & R1 & _ & R2 & _);
    [vm_compute; lia|lia|]. rewrite R1. exists r. split; [reflexivity|]. rewrite R2. reflexivity.
Qed.
