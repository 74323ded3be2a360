(** The words compared by the gadgets are not just above a power of two, so that their carry widths
    are exact; and a word for which the carry width is one bit short. *)
From Coq Require Import ZArith Bool List Lia ZifyBool ZifyNat.
From Verif.Model Require Import Base CS Bellpepper Util Poly Bignat Fields F64.
From Verif.Spec Require Import Spec SpecF64.
From Verif.Proofs Require Import PureOps Field Arith Limbs Group Carry Regroup Mult TopBignat1 TopBignat2 TopBignat3 Room TopBignat4 PrimeFields TopPure F64P.
Import ListNotations.
Local Open Scope Z_scope.

Definition away (M : Z) : Prop := M = 2 ^ Z.log2 M \/ 2 ^ Z.log2 M <= (M - 2 ^ Z.log2 M) * 2 ^ 43.

Lemma away_of M j : 0 <= j -> 2 ^ j * (2 ^ 43 + 1) <= M * 2 ^ 43 -> M < 2 ^ j * 2 -> away M.
Proof.
  intros Hj H1 H2. pose proof (p2pos j Hj). assert (HL : Z.log2 M = j).
  { apply Z.log2_unique; [lia|]. rewrite Z.pow_succ_r by lia. lia. }
  right. rewrite HL. lia.
Qed.
(** (G-1) * 2^t *)
Lemma away_pow n t : (2 <= n)%nat -> (0 <= t) -> away ((2 ^ Z.of_nat n - 1) * 2 ^ t).
Proof.
  intros Hn Ht. pose proof (p2pos t Ht).
  assert (E : 2 ^ Z.of_nat n = 2 ^ Z.of_nat (n - 1) * 2) by (replace (Z.of_nat n) with (Z.of_nat (n - 1) + 1) by lia; rewrite Z.pow_add_r by lia; reflexivity).
  assert (2 ^ 1 <= 2 ^ Z.of_nat (n - 1)) by (apply Z.pow_le_mono_r; lia). change (2 ^ 1) with 2 in *.
  apply (away_of _ (Z.of_nat (n - 1) + t)); [lia| |]; rewrite Z.pow_add_r by lia; rewrite E;
    set (A := 2 ^ Z.of_nat (n - 1)) in *; set (T := 2 ^ t) in *; clearbody A T; [|nia].
  assert (A * (2 ^ 43 + 1) <= (A * 2 - 1) * 2 ^ 43) by lia. nia.
Qed.
Lemma away_product w g k e : (1 <= w)%nat -> (1 <= g)%nat -> let B := 2 ^ Z.of_nat w in
  1 <= k <= 2 ^ 42 -> 4 * k < B -> 0 <= e <= 1 -> away ((2 ^ Z.of_nat (w * g) - 1) * (k * (B - 1) + e)).
Proof.
  intros Hw Hg B Hk HkB He. set (G := 2 ^ Z.of_nat (w * g)).
  assert (HBG : B <= G) by (apply Z.pow_le_mono_r; nia).
  assert (HlowX : k * (G * (B - 2)) <= (G - 1) * (k * (B - 1) + e)) by nia.
  assert (HhighX : (G - 1) * (k * (B - 1) + e) < k * (B * G)) by nia.
  pose proof (Z.log2_spec k ltac:(lia)) as [K1 K2]. pose proof (Z.log2_nonneg k) as K0. rewrite Z.pow_succ_r in K2 by lia.
  set (j := Z.log2 k) in *. set (X := (G - 1) * (k * (B - 1) + e)) in *.
  assert (HBGp : B * G = 2 ^ Z.of_nat (w + w * g)) by (unfold B, G; rewrite <- Z.pow_add_r by lia; f_equal; lia).
  destruct (Z.eq_dec k (2 ^ j)) as [P|P].
  - set (n := (w + w * g)%nat) in *. assert (Hn : (1 <= n)%nat) by lia.
    apply (away_of _ (j + Z.of_nat n - 1)); [lia| |].
    + assert (E : 2 * 2 ^ (j + Z.of_nat n - 1) = k * (B * G)).
      { rewrite HBGp, P, <- Z.pow_succ_r, <- Z.pow_add_r by lia. f_equal. lia. }
      assert (S1 : B * (2 ^ 43 + 1) <= 2 * (B - 2) * 2 ^ 43) by lia.
      assert (S2 : k * G * (B * (2 ^ 43 + 1)) <= k * G * (2 * (B - 2) * 2 ^ 43)) by (apply Z.mul_le_mono_nonneg_l; [nia|exact S1]).
      set (T := 2 ^ (j + Z.of_nat n - 1)) in *. clearbody T X. nia.
    + assert (E : 2 ^ (j + Z.of_nat n - 1) * 2 = k * (B * G)).
      { rewrite HBGp, P, Z.mul_comm, <- Z.pow_succ_r, <- Z.pow_add_r by lia. f_equal. lia. }
      lia.
  - apply (away_of _ (j + Z.of_nat (w + w * g))); [lia| |]; rewrite Z.pow_add_r, <- HBGp by lia; set (a := 2 ^ j) in *.
    + assert (S1 : a * B * (2 ^ 43 + 1) <= k * (B - 2) * 2 ^ 43).
      { assert (B <= 2 * (k * (B - 2) - a * B)) by nia. assert (a * B <= 2 ^ 42 * B) by nia. change (2 ^ 43) with (2 * 2 ^ 42). nia. }
      assert (S2 : G * (a * B * (2 ^ 43 + 1)) <= G * (k * (B - 2) * 2 ^ 43)) by (apply Z.mul_le_mono_nonneg_l; lia).
      clearbody X. nia.
    + nia.
Qed.

Section F64.
Context {E : Env} {W : Wf E} (HF : f64_carries E) (Hcap : (CAPACITY <= 500)%nat).

Lemma exact_of_away M w : 0 <= M < 2 ^ 1020 -> Z.of_nat w < 2 ^ 53 -> M = 0 \/ away M -> carry_bits_f64 M w = carry_bits_exact M w.
Proof.
  intros HM Hw Ha. destruct HF as (l & Hl & ->). destruct Ha as [-> | Ha].
  - now apply carry_zero.
  - now apply top_carry_exact.
Qed.

Lemma group_size_le M w : (1 <= w)%nat -> (w * group_size M w <= CAPACITY)%nat.
Proof. intros Hw. unfold group_size. pose proof (Nat.mul_div_le (CAPACITY - carry_bits_f64 M w) w ltac:(lia)). lia. Qed.

(** A word (B-1)*T whose regrouped words (B^g-1)*T are away from the powers of two. *)
Lemma exact_of_T w T : (1 <= w)%nat -> 0 <= T -> let M := (2 ^ Z.of_nat w - 1) * T in
  2 * M <= 2 ^ Z.of_nat CAPACITY -> (forall g, (1 <= g)%nat -> away ((2 ^ Z.of_nat (w * g) - 1) * T)) -> exact_carries M w.
Proof.
  intros Hw HT M HM Ha.
  assert (HB : 2 <= 2 ^ Z.of_nat w) by (apply pow2_two; auto).
  assert (Hc : 2 ^ Z.of_nat CAPACITY <= 2 ^ 500) by (apply Z.pow_le_mono_r; lia).
  assert (H5 : 2 ^ 1020 = 2 ^ 500 * 2 ^ 520) by (rewrite <- Z.pow_add_r by lia; reflexivity).
  assert (H6 : 0 < 2 ^ 500 < 2 ^ 520) by (split; [apply p2pos; lia|apply Z.pow_lt_mono_r; lia]).
  assert (HM0 : 0 <= M) by (unfold M; nia).
  assert (Hwc : (w <= 500)%nat \/ M = 0).
  { destruct (Z.eq_dec M 0); [now right|left]. assert (1 <= T) by (unfold M in *; nia).
    assert (2 ^ Z.of_nat w <= 2 * M) by (unfold M; nia).
    apply Nat2Z.inj_le. apply (Z.pow_le_mono_r_iff 2); [lia|lia|]. change (Z.of_nat 500) with 500. lia. }
  assert (HgM : forall g, group_word M w = ones (2 ^ Z.of_nat w) g * M -> group_word M w = (2 ^ Z.of_nat (w * g) - 1) * T).
  { intros g ->. unfold M. pose proof (ones_spec (2 ^ Z.of_nat w) g) as HO. rewrite <- pow2_mul in HO. nia. }
  specialize (HgM (group_size M w) (group_word_ones M w)). pose proof (group_size_le M w Hw) as Hgs.
  set (g := group_size M w) in *.
  assert (Hz : M = 0 -> T = 0) by (unfold M; nia).
  destruct (Z.eq_dec M 0) as [Z0|N0].
  { assert (T0 : T = 0) by auto. split; fold g.
    - destruct HF as (l & Hl & Hq). rewrite Hq, Z0. destruct (Z.lt_ge_cases (Z.of_nat w) (2 ^ 53)); [now apply carry_zero|].
      exfalso. specialize (Ha 1%nat ltac:(lia)). rewrite T0, Z.mul_0_r in Ha. unfold away in Ha. change (Z.log2 0) with 0 in Ha. lia.
    - specialize (Ha 1%nat ltac:(lia)). rewrite T0, Z.mul_0_r in Ha. unfold away in Ha. change (Z.log2 0) with 0 in Ha. lia. }
  destruct Hwc as [Hw5|]; [|lia].
  split.
  - apply exact_of_away; [nia|change (2 ^ 53) with 9007199254740992; lia|right]. unfold M. 
    specialize (Ha 1%nat ltac:(lia)). now rewrite Nat.mul_1_r in Ha.
  - fold g. apply exact_of_away.
    + rewrite HgM. assert (2 ^ Z.of_nat (w * g) <= 2 ^ 500) by (apply Z.pow_le_mono_r; lia).
      assert (0 < 2 ^ Z.of_nat (w * g)) by (apply p2pos; lia).
      assert (T <= 2 ^ 500) by (unfold M in *; nia). split; [nia|].
      apply Z.le_lt_trans with (2 ^ 500 * 2 ^ 500); [|rewrite H5; apply Zmult_lt_compat_l; lia].
      apply Z.mul_le_mono_nonneg; lia.
    + change (2 ^ 53) with 9007199254740992. lia.
    + rewrite HgM. destruct g as [|g']; [left; rewrite Nat.mul_0_r; change (2 ^ Z.of_nat 0) with 1; lia|right]. apply Ha. lia.
Qed.

Lemma exact_product w k e : (1 <= w)%nat -> let B := 2 ^ Z.of_nat w in let M := k * (B - 1) * (B - 1) + e * (B - 1) in
  1 <= k <= 2 ^ 42 -> 4 * k < B -> 0 <= e <= 1 -> 2 * M <= 2 ^ Z.of_nat CAPACITY -> exact_carries M w.
Proof.
  intros Hw B M Hk HkB He HM. replace M with ((B - 1) * (k * (B - 1) + e)) in * by (unfold M; ring).
  apply exact_of_T; auto; [fold B; nia|]. intros g Hg. now apply away_product.
Qed.
Lemma exact_pow w t : (2 <= w)%nat -> 0 <= t -> let M := (2 ^ Z.of_nat w - 1) * 2 ^ t in
  2 * M <= 2 ^ Z.of_nat CAPACITY -> exact_carries M w.
Proof.
  intros Hw Ht M HM. apply exact_of_T; auto; [lia|apply Z.pow_nonneg; lia|]. intros g Hg. apply away_pow; nia.
Qed.

Lemma top_f64_product w n m : let B := 2 ^ Z.of_nat w in
  let M := Z.max (product_word n (B - 1) m (B - 1)) (B - 1) in
  (1 <= w)%nat -> (1 <= n)%nat -> (1 <= m)%nat -> Z.of_nat (Nat.min n m) <= 2 ^ 42 ->
  4 * Z.of_nat (Nat.min n m) < B -> 2 * M <= 2 ^ Z.of_nat CAPACITY ->
  group_no_wrap M w /\ group_room M w.
Proof.
  intros B M Hw Hn Hm H42 H4 Hc. apply top_room_product; auto. fold B M.
  pose proof (word_mult w n m Hw Hn Hm) as HM. cbv zeta in HM. fold B M in HM. rewrite HM in *. apply exact_product; auto; lia.
Qed.
Lemma top_f64_mod w n m q l : let B := 2 ^ Z.of_nat w in
  let M := Z.max (product_word n (B - 1) m (B - 1)) (product_word q (B - 1) l (B - 1) + (B - 1)) in
  (1 <= w)%nat -> (1 <= n)%nat -> (1 <= m)%nat -> (1 <= q)%nat -> (1 <= l)%nat ->
  Z.of_nat (Nat.max (Nat.min n m) (Nat.min q l)) <= 2 ^ 42 ->
  4 * Z.of_nat (Nat.max (Nat.min n m) (Nat.min q l)) < B -> 2 * M <= 2 ^ Z.of_nat CAPACITY ->
  group_no_wrap M w /\ group_room M w.
Proof.
  intros B M Hw Hn Hm Hq Hl H42 H4 Hc. apply top_room_mod; auto. fold B M.
  destruct (word_mod w n m q l Hw Hn Hm Hq Hl) as (k & e & HM & He & Hk). fold B M in HM. rewrite HM in *.
  apply exact_product; auto; lia.
Qed.
Lemma top_f64_red w q l : let B := 2 ^ Z.of_nat w in
  let M := Z.max (B - 1) (product_word q (B - 1) l (B - 1) + (B - 1)) in
  (1 <= w)%nat -> (1 <= q)%nat -> (1 <= l)%nat -> Z.of_nat (Nat.min q l) <= 2 ^ 42 ->
  4 * Z.of_nat (Nat.min q l) < B -> 2 * M <= 2 ^ Z.of_nat CAPACITY ->
  group_no_wrap M w /\ group_room M w.
Proof.
  intros B M Hw Hq Hl H42 H4 Hc. apply top_room_red; auto. fold B M.
  pose proof (word_red w q l Hw Hq Hl) as HM. cbv zeta in HM. fold B M in HM. rewrite HM in *. apply exact_product; auto; lia.
Qed.
Lemma top_f64_equal w : let M := 2 ^ Z.of_nat w - 1 in
  (2 <= w)%nat -> 2 * M <= 2 ^ Z.of_nat CAPACITY -> group_no_wrap M w /\ group_room M w.
Proof.
  intros M Hw Hc. apply top_room_equal; auto. fold M. replace M with ((2 ^ Z.of_nat w - 1) * 2 ^ 0) in * by (unfold M; change (2 ^ 0) with 1; lia).
  apply exact_pow; auto; lia.
Qed.
Lemma top_f64_header : (194 <= CAPACITY)%nat ->
  exact_carries ((2 ^ 64 - 1) * 2 ^ 128) 64 /\ exact_carries ((2 ^ 64 - 1) * (2 ^ 65 - 1)) 64.
Proof.
  intros Hc. assert (H : 2 ^ 194 <= 2 ^ Z.of_nat CAPACITY) by (apply Z.pow_le_mono_r; lia). split.
  - apply (exact_pow 64 128); [lia|lia|]. change (2 ^ Z.of_nat 64) with (2 ^ 64). lia.
  - replace ((2 ^ 64 - 1) * (2 ^ 65 - 1)) with (2 * (2 ^ 64 - 1) * (2 ^ 64 - 1) + 1 * (2 ^ 64 - 1)) by reflexivity.
    apply (exact_product 64 2 1); try lia; change (2 ^ Z.of_nat 64) with (2 ^ 64); lia.
Qed.

(** ** Equal numbers that are rejected because the width is one bit short *)
Lemma short_64 : carry_bits_f64 (2 ^ 64 + 1) 64 = 1%nat.
Proof using HF.
  clear Hcap W.
  destruct HF as (l & Hl & ->). rewrite (top_carry_short l Hl); try (change (Z.log2 (2 ^ 64 + 1)) with 64); try lia.
  reflexivity.
Qed.
Lemma top_short wit a b x s u s' rho0 : 2 ^ 67 <= modulus ->
  good_for rho0 s -> bignat_for rho0 s a [2 ^ 64 + 1; x] -> bignat_for rho0 s b [1; x + 1] ->
  limb_width (bparams a) = 64%nat -> max_word (bparams a) = 2 ^ 64 + 1 -> max_word (bparams b) <= 2 ^ 64 + 1 ->
  run wit (equal_when_carried a b) s = (Ok u, s') ->
  value_of (2 ^ 64) [2 ^ 64 + 1; x] = value_of (2 ^ 64) [1; x + 1] /\
  ~ exists rho, same_on s rho rho0 /\ sat rho s'.
Proof using HF W.
  clear Hcap. intros Hp G Ha Hb Hw Ma Mb Hr. split; [cbn [value_of]; ring|]. intros Hx.
  pose proof (top_ewc_exact wit a b [2 ^ 64 + 1; x] [1; x + 1] s u s' rho0 G Ha Hb Hr) as H. cbv zeta in H.
  rewrite Hw, Ma in H. rewrite (Z.max_l (2 ^ 64 + 1)) in H by auto. pose proof short_64 as Hcb.
  assert (Hcw : carry_width (2 ^ 64 + 1) 64 = 1%nat) by (unfold carry_width; rewrite Hcb; reflexivity).
  apply H in Hx; [|lia|].
  - destruct Hx as (_ & _ & K). specialize (K 1%nat ltac:(cbn; lia)). rewrite Hcw in K. 
    change (2 ^ Z.of_nat 64) with (2 ^ 64) in K. unfold running_carry in K. cbn [carry_offset sum_n nth] in K.
    change (Z.of_nat 0) with 0 in K. change (Z.of_nat 1) with 1 in K. rewrite Z.pow_0_r, !Z.pow_1_r in K.
    replace (0 + (2 ^ 64 + 1 - 1) * 1) with (1 * 2 ^ 64) in K by lia. rewrite Z.div_mul in K by lia.
    change ((0 + (2 ^ 64 + 1)) / 2 ^ 64) with 1 in K. lia.
  - unfold no_wrap. rewrite Hcw. change (2 ^ Z.of_nat 64) with (2 ^ 64). change (2 ^ Z.of_nat 1) with 2. lia.
Qed.
End F64.

Section Shift.
Context {E : Env} {W : Wf E}.

Lemma cap_of n : 0 <= n -> 2 ^ n <= modulus -> n <= Z.of_nat CAPACITY.
Proof.
  intros Hn H. unfold CAPACITY, NUM_BITS. cbn [Nat.pred]. rewrite Z2Nat.id by apply Z.log2_nonneg.
  apply Z.log2_le_pow2; auto. apply Z.lt_le_trans with (2 ^ n); auto. now apply p2pos.
Qed.

Lemma top_short_shift wit a b x s : f64_carries E -> 2 ^ 67 <= modulus ->
  good s -> bignat_at s a [2 ^ 64 - 1; x] -> bignat_at s b [1; x + 1] ->
  limb_width (bparams a) = 64%nat -> max_word (bparams a) = 2 ^ 64 - 1 -> max_word (bparams b) = 2 ^ 64 - 1 ->
  exists c, shift a 2 = Ok c /\
    (2 ^ 64 - 1 + 2 ^ 64 * x) + 2 = 1 + 2 ^ 64 * (x + 1) /\
    forall u s', run wit (equal_when_carried c b) s = (Ok u, s') -> ~ exists rho, same_on s rho (asg s) /\ sat rho s'.
Proof.
  intros HF Hp G Ha Hb Hw Ma Mb. pose proof (cap_of 67 ltac:(lia) Hp) as Hc.
  destruct (top_shift a 2) as (c & Hc1 & _ & Hc3 & Hc4 & _ & Hc6); auto.
  - apply (bignat_at_for _ _ _ Ha).
  - destruct Ha as (_ & Ha & _). intros N. rewrite N in Ha. inversion Ha.
  - unfold canon. lia.
  - rewrite Ma. assert (2 ^ 67 <= 2 ^ Z.of_nat CAPACITY) by (apply Z.pow_le_mono_r; lia). lia.
  - exists c. split; auto. split; [ring|]. intros u s' Hr.
    specialize (Hc6 s (2 ^ 64 - 1) [x] G Ha). replace (2 ^ 64 - 1 + 2) with (2 ^ 64 + 1) in Hc6 by lia.
    eapply (top_short HF wit c b x s u s' (asg s)); auto.
    + now apply bignat_at_for.
    + now apply bignat_at_for.
    + now rewrite Hc4.
    + rewrite Hc3, Ma. reflexivity.
    + rewrite Mb. lia.
Qed.

(** With the exact width the same operands are accepted. *)
Lemma top_exact_shift a b x s : carry_bits_f64 (2 ^ 64 + 1) 64 = carry_bits_exact (2 ^ 64 + 1) 64 -> 2 ^ 67 <= modulus ->
  good s -> bignat_at s a [2 ^ 64 - 1; x] -> bignat_at s b [1; x + 1] ->
  limb_width (bparams a) = 64%nat -> limb_width (bparams b) = 64%nat ->
  max_word (bparams a) = 2 ^ 64 - 1 -> max_word (bparams b) = 2 ^ 64 - 1 ->
  exists c s', shift a 2 = Ok c /\ run true (equal_when_carried c b) s = (Ok tt, s') /\ good s'.
Proof.
  intros HX Hp G Ha Hb Hw Hwb Ma Mb. pose proof (cap_of 67 ltac:(lia) Hp) as Hc.
  destruct (top_shift a 2) as (c & Hc1 & _ & Hc3 & Hc4 & _ & Hc6); auto.
  - apply (bignat_at_for _ _ _ Ha).
  - destruct Ha as (_ & Ha & _). intros N. rewrite N in Ha. inversion Ha.
  - unfold canon. lia.
  - rewrite Ma. assert (2 ^ 67 <= 2 ^ Z.of_nat CAPACITY) by (apply Z.pow_le_mono_r; lia). lia.
  - specialize (Hc6 s (2 ^ 64 - 1) [x] G Ha). replace (2 ^ 64 - 1 + 2) with (2 ^ 64 + 1) in Hc6 by lia.
    pose proof (top_ewc_complete_same c b [2 ^ 64 + 1; x] [1; x + 1] s) as H. cbv zeta in H.
    rewrite Hc3, Hc4, Hw, Ma, Mb in H. change (Z.max (2 ^ 64 - 1 + 2) (2 ^ 64 - 1)) with (2 ^ 64 + 1) in H.
    destruct H as (s' & H1 & H2); auto; try lia.
    + cbn [value_of]. change (2 ^ Z.of_nat 64) with (2 ^ 64). ring.
    + unfold carry_room, carry_width. rewrite HX. change (carry_bits_exact (2 ^ 64 + 1) 64) with 2%nat.
      change (Nat.max 1 2) with 2%nat. change (2 ^ Z.of_nat 64) with (2 ^ 64). change (2 ^ Z.of_nat 2) with 4. lia.
    + exists c, s'. auto.
Qed.
End Shift.

(** ** Instances *)
Lemma f64_carries_pallas l ck : faithful_log2 l -> f64_carries (pallas_f64 l ck).
Proof. intros H. exists l. split; auto. Qed.
Lemma f64_carries_fr l ck : faithful_log2 l -> f64_carries (fr_f64 l ck).
Proof. intros H. exists l. split; auto. Qed.
Global Instance wf_pallas_f64 l ck : Wf (pallas_f64 l ck).
Proof. destruct (wf_pallas ck) as [H1 H2 H3 H4]. constructor; assumption. Qed.
Global Instance wf_fr_f64 l ck : Wf (fr_f64 l ck).
Proof. destruct (wf_fr ck) as [H1 H2 H3 H4]. constructor; assumption. Qed.
Lemma cap_pallas_f64 l ck : @CAPACITY (pallas_f64 l ck) = 254%nat.
Proof. exact (pallas_capacity ck). Qed.

Lemma top_mult_pallas_f64 l ck wit a b s p s' rho : let E := pallas_f64 l ck in faithful_log2 l ->
  run wit (mult a b) s = (Ok p, s') -> sat rho s' -> well_shaped a -> well_shaped b ->
  limb_width (bparams a) = 64%nat -> max_word (bparams a) = 2 ^ 64 - 1 -> max_word (bparams b) = 2 ^ 64 - 1 ->
  Forall (fun v => 0 <= v < 2 ^ 64) (wires rho (limbs a)) -> Forall (fun v => 0 <= v < 2 ^ 64) (wires rho (limbs b)) ->
  limbs a <> [] -> limbs b <> [] ->
  Z.of_nat (length (limbs a)) <= 2 ^ 42 -> Z.of_nat (length (limbs b)) <= 2 ^ 42 ->
  int_of rho p = int_of rho a * int_of rho b /\
  Forall (fun v => 0 <= v < 2 ^ 64) (wires rho (limbs p)) /\
  length (limbs p) = (length (limbs a) + length (limbs b))%nat.
Proof.
  intros E HL Hr Hs Sa Sb Hw Ma Mb Ba Bb La Lb Ua Ub.
  apply nonempty_length in La, Lb.
  assert (Hm : Z.of_nat (length (limbs a) + length (limbs b)) <= modulus).
  { change modulus with pallas_scalar_modulus. unfold pallas_scalar_modulus. lia. }
  destruct (top_f64_product (E := E) (W := wf_pallas_f64 l ck) (f64_carries_pallas l ck HL) ltac:(unfold E; rewrite cap_pallas_f64; lia) 64 (length (limbs a)) (length (limbs b))) as [Hn _]; auto.
  - lia.
  - lia.
  - change (2 ^ Z.of_nat 64) with (2 ^ 64). lia.
  - unfold E. rewrite cap_pallas_f64. unfold product_word. change (2 ^ Z.of_nat 64) with (2 ^ 64).
    set (k := Z.of_nat (Nat.min _ _)). assert (0 <= k <= 2 ^ 42) by lia.
    assert (k * (2 ^ 64 - 1) * (2 ^ 64 - 1) <= 2 ^ 42 * (2 ^ 64 - 1) * (2 ^ 64 - 1)).
    { rewrite <- !Z.mul_assoc. apply Z.mul_le_mono_nonneg_r; lia. }
    change (Z.of_nat 254) with 254. lia.
  - pose proof (top_mult_sound (E := E) (W := wf_pallas_f64 l ck) wit a b s p s' rho Hr Hs Sa Sb) as H. cbv zeta in H.
    rewrite Hw, Ma, Mb in H. destruct H as (H1 & H2 & H3 & _); auto.
    + eapply Forall_impl; [|exact Ba]. cbv beta. rewrite Ma. lia.
    + eapply Forall_impl; [|exact Bb]. cbv beta. rewrite Mb. lia.
Qed.

(** ** Words too big for f64 *)
Lemma top_overflow l M w : faithful_log2 l -> 2 ^ 1023 <= M -> Z.of_nat w < 2 ^ 53 -> carry_bits_of l M w = Z.to_nat usize_max.
Proof.
  intros (_ & _ & HI) HM Hw. assert (HMp : 0 < M) by (pose proof (p2pos 1023 ltac:(lia)); lia).
  assert (HK : 1023 <= Z.log2 M) by (apply Z.log2_le_pow2; auto).
  pose proof (Z.log2_spec M HMp) as [B1 B2].
  assert (Ef : fmul2 (f64_of_bigint M) = Inf false); [|unfold carry_bits_of; rewrite Ef, HI, of_usize_small by auto; reflexivity].
  unfold f64_of_bigint, fround. rewrite (Z.abs_eq M) by lia. rewrite (Z.max_r 0) by lia. set (s := Z.log2 M - 52).
  assert (Hq : 2 ^ 52 <= rne M s).
  { apply rne_mono_low; [lia|]. rewrite <- Z.pow_add_r by lia. now replace (52 + s) with (Z.log2 M) by lia. }
  assert (Hq2 : rne M s <= 2 ^ 53).
  { apply rne_mono_up; [lia|]. rewrite <- Z.pow_add_r by lia. replace (53 + s) with (Z.succ (Z.log2 M)) by lia. lia. }
  set (q := rne M s) in *. assert (0 < q) by lia. rewrite (Z.abs_eq q) by lia.
  assert (L : 52 <= Z.log2 q) by (apply Z.log2_le_pow2; lia).
  replace (negb (q =? 0)) with true by lia. cbn [andb].
  destruct (1024 <=? Z.log2 q + (0 + s)) eqn:E1.
  { cbn [fmul2]. f_equal. lia. }
  cbn [fmul2]. destruct (Z.eq_dec q (2 ^ 53)) as [Q|Q].
  { exfalso. rewrite Q in E1. change (Z.log2 (2 ^ 53)) with 53 in E1. lia. }
  unfold fround. rewrite (Z.abs_eq q) by lia. 
  assert (L2 : Z.log2 q <= 52) by (apply log2_le_pow; lia). rewrite (Z.max_l 0) by lia. rewrite rne_0.
  rewrite (Z.abs_eq q) by lia. replace (negb (q =? 0)) with true by lia. cbn [andb].
  destruct (1024 <=? Z.log2 q + (0 + s + 1 + 0)) eqn:E2; [f_equal; lia|lia].
Qed.
