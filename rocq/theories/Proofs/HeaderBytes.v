(** The "byte" expressions of header_step.rs: what they compute with and without overflow checks. *)
From Coq Require Import ZArith Znumtheory Bool String List Lia ZifyBool ZifyNat.
From Verif.Model Require Import Base Sha256 CS Bellpepper Util Poly Bignat Ints Median Difficulty HeaderStep.
From Verif.Spec Require Import Spec SpecHeader.
From Verif.Proofs Require Import Field Arith Convert Limbs HashP HeaderInts.
Import ListNotations.
Local Open Scope Z_scope.

Section Bytes.
Context {E : Env} {W : Wf E}.

(** ** Operators *)
Lemma checked_wrap w r : overflow_checks = false -> 0 <= w -> checked w r = Ok (r mod 2 ^ w).
Proof.
  intros H Hw. unfold checked, two_to. rewrite H. destruct (_ && _) eqn:B; [|reflexivity]. rewrite Z.mod_small; [reflexivity|]. lia.
Qed.
Lemma amount_wrap w n : overflow_checks = false -> 0 <= n -> 0 < w -> amount w n = Ok (n mod w).
Proof.
  intros H Hn Hw. unfold amount. rewrite H. destruct (Z.ltb_spec n w); [|reflexivity]. rewrite Z.mod_small; [reflexivity|]. lia.
Qed.
Lemma shl_wrap w a n : overflow_checks = false -> 0 <= n -> 0 < w -> shl w a n = Ok (a * 2 ^ (n mod w) mod 2 ^ w).
Proof.
  intros H Hn Hw. unfold shl. rewrite amount_wrap by auto. cbn [rbind]. unfold two_to. pose proof (Z.mod_pos_bound n w Hw). now rewrite Z.shiftl_mul_pow2 by lia.
Qed.
Lemma shr_wrap w a n : overflow_checks = false -> 0 <= n -> 0 < w -> shr w a n = Ok (a / 2 ^ (n mod w)).
Proof.
  intros H Hn Hw. unfold shr. rewrite amount_wrap by auto. cbn [rbind]. pose proof (Z.mod_pos_bound n w Hw). now rewrite Z.shiftr_div_pow2 by lia.
Qed.
Lemma shl_in w a n : 0 <= n < w -> shl w a n = Ok (a * 2 ^ n mod 2 ^ w).
Proof. intros H. unfold shl. rewrite amount_in by lia. cbn [rbind]. unfold two_to. now rewrite Z.shiftl_mul_pow2 by lia. Qed.
Lemma shr_in w a n : 0 <= n < w -> shr w a n = Ok (a / 2 ^ n).
Proof. intros H. unfold shr. rewrite amount_in by lia. cbn [rbind]. now rewrite Z.shiftr_div_pow2 by lia. Qed.
Lemma shl_out w a n : overflow_checks = true -> w <= n -> shl w a n = Panic.
Proof. intros H Hn. unfold shl, amount. rewrite H. now replace (n <? w) with false by lia. Qed.
Lemma shr_out w a n : overflow_checks = true -> w <= n -> shr w a n = Panic.
Proof. intros H Hn. unfold shr, amount. rewrite H. now replace (n <? w) with false by lia. Qed.
Lemma checked_in w r : 0 <= r < 2 ^ w -> checked w r = Ok r.
Proof. intros H. unfold checked, two_to. now replace ((0 <=? r) && (r <? 2 ^ w)) with true by lia. Qed.
Lemma checked_out w r : overflow_checks = true -> ~ (0 <= r < 2 ^ w) -> checked w r = Panic.
Proof. intros H Hr. unfold checked, two_to. rewrite H. now replace ((0 <=? r) && (r <? 2 ^ w)) with false by lia. Qed.
Lemma mod64 x : (x mod 2 ^ 64) mod 64 = x mod 64.
Proof. change (2 ^ 64) with (64 * 2 ^ 58). rewrite Z.rem_mul_r by lia. rewrite (Z.mul_comm 64), Z.mod_add by lia. apply Z.mod_mod. lia. Qed.

(** ** The four expressions *)
Definition shift_b (k n : Z) : Z := n / 2 ^ ((k - n / 2 ^ 24) mod 64).
Lemma split_wrap n : overflow_checks = false -> 0 <= n < 2 ^ 32 ->
  split_bytes n = Ok (mkQB (n mod 256) (shift_b 8 n * 2 ^ 40 mod 2 ^ 64) (shift_b 16 n * 2 ^ 24 mod 2 ^ 64) (n / 2 ^ 24)).
Proof.
  intros HO Hn. unfold split_bytes, u64_sub, u64_shr, u64_shl. rewrite shr_in by lia. cbn [rbind]. set (b3 := n / 2 ^ 24).
  assert (P : forall x, 0 <= x mod 2 ^ 64) by (intros x; apply Z.mod_pos_bound; lia).
  rewrite !checked_wrap by (auto; lia). cbn [rbind].
  rewrite shr_wrap by (auto; lia). cbn [rbind]. rewrite mod64. 
  rewrite shl_in by lia. cbn [rbind]. rewrite !checked_wrap by (auto; lia). cbn [rbind].
  rewrite shr_wrap by (auto; lia). cbn [rbind]. rewrite mod64. 
  rewrite shl_wrap by (auto; lia). cbn [rbind]. rewrite mod64. rewrite shl_in by lia. cbn [rbind].
  assert (H24 : (24 - shift_b 16 n * 2 ^ 24 mod 2 ^ 64) mod 64 = 24).
  { rewrite (Z.mod_eq (shift_b 16 n * 2 ^ 24)) by lia. rewrite Zminus_mod. replace (shift_b 16 n * 2 ^ 24 - 2 ^ 64 * (shift_b 16 n * 2 ^ 24 / 2 ^ 64)) with ((shift_b 16 n * 2 ^ 18 - 2 ^ 58 * (shift_b 16 n * 2 ^ 24 / 2 ^ 64)) * 64) by ring.
    rewrite Z.mod_mul by lia. reflexivity. }
  change (n / 2 ^ ((16 - b3) mod 64)) with (shift_b 16 n). change (n / 2 ^ ((8 - b3) mod 64)) with (shift_b 8 n). rewrite H24. do 2 f_equal. rewrite Zmult_mod_idemp_l. f_equal. change (2 ^ 40) with (2 ^ 24 * 2 ^ 16). ring.
Qed.
Lemma split_checked n : overflow_checks = true -> 0 <= n < 2 ^ 32 ->
  split_bytes n = if n <? 2 ^ 16 then Ok (mkQB (n mod 256) (n / 256 * 2 ^ 40) 0 0) else Panic.
Proof.
  intros HO Hn. unfold split_bytes, u64_sub, u64_shr, u64_shl. rewrite shr_in by lia. cbn [rbind].
  destruct (Z.ltb_spec n (2 ^ 16)) as [H|H].
  - assert (H3 : n / 2 ^ 24 = 0) by (apply Z.div_small; lia). rewrite H3, !Z.sub_0_r. rewrite !checked_in by lia. cbn [rbind].
    rewrite (shr_in 64 n 16) by lia. cbn [rbind]. rewrite (Z.div_small n (2 ^ 16)) by lia. rewrite shl_in by lia. cbn [rbind].
    rewrite Z.mul_0_l, Z.mod_0_l, Z.sub_0_r by lia. rewrite checked_in by lia. cbn [rbind].
    rewrite shr_in by lia. cbn [rbind]. rewrite shl_in by lia. cbn [rbind]. rewrite shl_in by lia. cbn [rbind].
    change (2 ^ 8) with 256. assert (B : 0 <= n / 256 < 256) by (split; [apply Z.div_pos; lia|apply Z.div_lt_upper_bound; lia]).
    do 2 f_equal. rewrite (Z.mod_small (n / 256 * 2 ^ 24)) by lia. rewrite Z.mod_small by lia. lia.
  - set (b3 := n / 2 ^ 24). assert (B3 : 0 <= b3) by (apply Z.div_pos; lia).
    destruct (Z.le_gt_cases b3 16) as [H16|H16]; [|rewrite (checked_out 64 (16 - b3)) by lia; reflexivity].
    rewrite (checked_in 64 (16 - b3)) by lia. cbn [rbind]. rewrite shr_in by lia. cbn [rbind]. rewrite shl_in by lia. cbn [rbind].
    destruct (Z.le_gt_cases b3 8) as [H8|H8]; [|rewrite (checked_out 64 (8 - b3)) by lia; reflexivity].
    rewrite (checked_in 64 (8 - b3)) by lia. cbn [rbind].
    assert (HP : 0 < 2 ^ (16 - b3) <= 2 ^ 16) by (split; [apply Z.pow_pos_nonneg; lia|apply Z.pow_le_mono_r; lia]).
    assert (Hx : 1 <= n / 2 ^ (16 - b3) < 2 ^ 32).
    { split; [apply Z.div_le_lower_bound; lia|]. apply Z.div_lt_upper_bound; [lia|]. nia. }
    rewrite Z.mod_small by lia. rewrite (checked_out 64 (24 - _)) by lia. reflexivity.
Qed.

(** ** The compact target *)
Definition decode_target (n : Z) : res Z := let? b := split_bytes n in target_closure b.

Lemma mult_mod_pow a k w : 0 <= k <= w -> exists c, a * 2 ^ k mod 2 ^ w = c * 2 ^ k.
Proof.
  intros H. exists (a - 2 ^ (w - k) * (a * 2 ^ k / 2 ^ w)). rewrite Z.mod_eq by (apply Z.pow_nonzero; lia).
  replace (2 ^ w) with (2 ^ (w - k) * 2 ^ k) at 1 by (rewrite <- Z.pow_add_r by lia; f_equal; lia). ring.
Qed.

Lemma mantissa_wrap n : overflow_checks = false -> 0 <= n < 2 ^ 32 -> exists c, 
  (let b2 := shift_b 16 n * 2 ^ 24 mod 2 ^ 64 in
   let? k1 := u64_add 16 b2 in
   let? k2 := u64_add 8 (n / 2 ^ 24) in
   let? m := u64_shl (shift_b 8 n * 2 ^ 40 mod 2 ^ 64) k1 in u64_shl m k2) = Ok (c * 2 ^ 56) /\ 0 <= c * 2 ^ 56 < 2 ^ 64.
Proof.
  intros HO Hn. cbv zeta. unfold u64_add, u64_shl.
  assert (P : forall x, 0 <= x mod 2 ^ 64) by (intros x; apply Z.mod_pos_bound; lia).
  rewrite !checked_wrap by (auto; lia). cbn [rbind]. rewrite shl_wrap by (auto; lia). cbn [rbind]. rewrite shl_wrap by (auto; lia). cbn [rbind].
  rewrite !mod64.
  assert (H16 : (16 + shift_b 16 n * 2 ^ 24 mod 2 ^ 64) mod 64 = 16).
  { rewrite <- Zplus_mod_idemp_r, mod64. replace (shift_b 16 n * 2 ^ 24) with (shift_b 16 n * 2 ^ 18 * 64) by ring. rewrite Z.mod_mul by lia. reflexivity. }
  rewrite H16. rewrite !Zmult_mod_idemp_l.
  set (k := (8 + n / 2 ^ 24) mod 64). assert (Hk : 0 <= k) by (apply Z.mod_pos_bound; lia).
  rewrite <- Z.mul_assoc, Zmult_mod_idemp_l.
  replace (shift_b 8 n * 2 ^ 40 * (2 ^ 16 * 2 ^ k)) with (shift_b 8 n * 2 ^ k * 2 ^ 56) by (change (2 ^ 56) with (2 ^ 40 * 2 ^ 16); ring).
  destruct (mult_mod_pow (shift_b 8 n * 2 ^ k) 56 64) as [c Hc]; [lia|]. exists c. split; [now rewrite Hc|]. rewrite <- Hc. apply Z.mod_pos_bound. lia.
Qed.

Lemma decode_wrap n : overflow_checks = false -> 0 <= n < 2 ^ 32 -> exists c, 
  decode_target n = Ok (if (3 <=? n mod 256) && (n mod 256 <? 16) then fmk (c * 2 ^ (56 + 8 * (n mod 256 - 3)) mod 2 ^ 128) else 0).
Proof.
  intros HO Hn. unfold decode_target. rewrite split_wrap by auto. cbn [rbind]. unfold target_closure. cbn [qb0 qb1 qb2 qb3].
  destruct (mantissa_wrap n HO Hn) as (c & Hc & Bc). exists c.
  assert (Bm : 0 <= n mod 256 < 256) by (apply Z.mod_pos_bound; lia).
  unfold rbind at 1 2 3 in Hc. unfold rbind at 1 2 3 4.
  destruct (u64_add 16 _) as [k1| |]; try discriminate Hc. destruct (u64_add 8 _) as [k2| |]; try discriminate Hc.
  destruct (u64_shl _ k1) as [m| |]; try discriminate Hc. rewrite Hc. unfold u64_sub. rewrite checked_wrap by (auto; lia). cbn [rbind].
  assert (Z0 : canon 0) by apply canon_0.
  assert (HZ : forall s, fmul (from_u128 s) (from_u128 (c * 2 ^ 56 * 2 ^ 104 mod 2 ^ 128)) = 0).
  { intros s. replace (c * 2 ^ 56 * 2 ^ 104) with (c * 2 ^ 32 * 2 ^ 128) by (replace (2 ^ 32 * 2 ^ 128) with (2 ^ 56 * 2 ^ 104) by reflexivity; lia).
    rewrite Z.mod_mul by lia. unfold fmul, from_u128. rewrite <- (fmk_id 0) by auto. apply eqp_eq. rewrite !eqp_fmk. apply eqp_ring. ring. }
  destruct (Z.leb_spec 13 ((n mod 256 - 3) mod 2 ^ 64)) as [H|H].
  - replace ((3 <=? n mod 256) && (n mod 256 <? 16)) with false.
    2:{ symmetry. destruct (Z.le_gt_cases 3 (n mod 256)) as [K|K]; [|lia]. rewrite Z.mod_small in H by lia. lia. }
    unfold u128_shl. rewrite shl_in by lia. cbn [rbind]. rewrite checked_wrap by (auto; lia). cbn [rbind].
    unfold u64_mul. rewrite checked_wrap by (auto; lia). cbn [rbind]. rewrite shl_wrap by (auto; try lia; apply Z.mod_pos_bound; lia). cbn [rbind].
    change (8 * 13) with 104. now rewrite HZ.
  - assert (K : 3 <= n mod 256 < 16).
    { destruct (Z.le_gt_cases 3 (n mod 256)) as [K|K].
      - rewrite Z.mod_small in H by lia. lia.
      - exfalso. assert (HE : (n mod 256 - 3) mod 2 ^ 64 = n mod 256 - 3 + 2 ^ 64).
        { symmetry. apply (Z.mod_unique_pos _ _ (-1)); lia. }
        lia. }
    replace ((3 <=? n mod 256) && (n mod 256 <? 16)) with true by lia. rewrite Z.mod_small by lia.
    unfold u64_mul. rewrite checked_in by lia. cbn [rbind]. unfold u128_shl. rewrite shl_in by lia. cbn [rbind]. unfold from_u128.
    do 3 f_equal. rewrite Z.pow_add_r by lia. ring.
Qed.
Lemma decode_wrap_zero n : overflow_checks = false -> 0 <= n < 2 ^ 32 -> 16 <= n mod 256 -> decode_target n = Ok 0.
Proof. intros HO Hn H. destruct (decode_wrap n HO Hn) as [c ->]. now replace ((3 <=? n mod 256) && (n mod 256 <? 16)) with false by lia. Qed.

Lemma decode_checked n : overflow_checks = true -> 0 <= n < 2 ^ 32 ->
  decode_target n = if (n <? 2 ^ 16) && (3 <=? n mod 256) && (n mod 256 <? 32) then Ok 0 else Panic.
Proof.
  intros HO Hn. unfold decode_target. rewrite split_checked by auto. destruct (Z.ltb_spec n (2 ^ 16)) as [H|H]; [|reflexivity]. cbn [rbind andb].
  unfold target_closure. cbn [qb0 qb1 qb2 qb3]. unfold u64_add, u64_shl. rewrite !checked_in by lia. cbn [rbind]. rewrite !shl_in by lia. cbn [rbind].
  assert (B : 0 <= n / 256 < 256) by (split; [apply Z.div_pos; lia|apply Z.div_lt_upper_bound; lia]).
  assert (Bm : 0 <= n mod 256 < 256) by (apply Z.mod_pos_bound; lia).
  rewrite shl_in by lia. cbn [rbind]. rewrite Zmult_mod_idemp_l.
  replace (n / 256 * 2 ^ 40 * 2 ^ (16 + 0) * 2 ^ (8 + 0)) with (n / 256 * 2 ^ 64) by (change (2 ^ 64) with (2 ^ 40 * 2 ^ (16 + 0) * 2 ^ (8 + 0)); ring).
  rewrite Z.mod_mul by lia. unfold u64_sub. destruct (Z.leb_spec 3 (n mod 256)) as [H3|H3]; [|rewrite checked_out by lia; reflexivity].
  rewrite checked_in by lia. cbn [rbind andb]. assert (Z0 : canon 0) by apply canon_0.
  destruct (Z.leb_spec 13 (n mod 256 - 3)) as [H13|H13].
  - unfold u128_shl. rewrite shl_in by lia. cbn [rbind]. rewrite checked_in by lia. cbn [rbind]. unfold u64_mul. rewrite checked_in by lia. cbn [rbind].
    destruct (Z.ltb_spec (n mod 256) 32) as [H32|H32].
    + rewrite shl_in by lia. cbn [rbind]. f_equal. rewrite Z.mul_0_l, Z.mod_0_l by lia. unfold fmul, from_u128.
      rewrite <- (fmk_id 0) by auto. apply eqp_eq. rewrite !eqp_fmk. apply eqp_ring. ring.
    + rewrite shl_out by lia. reflexivity.
  - replace (n mod 256 <? 32) with true by lia. unfold u64_mul. rewrite checked_in by lia. cbn [rbind]. unfold u128_shl. rewrite shl_in by lia. cbn [rbind].
    f_equal.
Qed.

(** The decoded target is never the real one. *)
Definition swap32 (n : Z) : Z := n / 2 ^ 24 + 2 ^ 8 * (n / 2 ^ 16 mod 256) + 2 ^ 16 * (n / 2 ^ 8 mod 256) + 2 ^ 24 * (n mod 256).
Lemma swap_facts n : 0 <= n < 2 ^ 32 -> 0 <= swap32 n < 2 ^ 32 /\ swap32 n / 2 ^ 24 = n mod 256.
Proof.
  intros Hn. unfold swap32.
  assert (B0 : 0 <= n / 2 ^ 24 < 256) by (split; [apply Z.div_pos; lia|apply Z.div_lt_upper_bound; lia]).
  assert (B1 : 0 <= n / 2 ^ 16 mod 256 < 256) by (apply Z.mod_pos_bound; lia).
  assert (B2 : 0 <= n / 2 ^ 8 mod 256 < 256) by (apply Z.mod_pos_bound; lia).
  assert (B3 : 0 <= n mod 256 < 256) by (apply Z.mod_pos_bound; lia).
  split; [lia|]. symmetry. apply (Z.div_unique_pos _ _ _ (n / 2 ^ 24 + 2 ^ 8 * (n / 2 ^ 16 mod 256) + 2 ^ 16 * (n / 2 ^ 8 mod 256))); lia.
Qed.

Lemma not_multiple m e c : 0 < m < 2 ^ 23 -> 0 <= e <= 12 -> c * 2 ^ (56 + 8 * e) mod 2 ^ 128 <> m * 2 ^ (8 * e).
Proof.
  intros Hm He HE.
  rewrite Z.mod_eq in HE by lia. set (q := c * 2 ^ (56 + 8 * e) / 2 ^ 128) in HE.
  assert (P1 : 2 ^ (56 + 8 * e) = 2 ^ 24 * 2 ^ 32 * 2 ^ (8 * e)) by (rewrite Z.pow_add_r by lia; reflexivity).
  assert (P2 : 2 ^ 128 = 2 ^ (96 - 8 * e) * 2 ^ 32 * 2 ^ (8 * e)).
  { rewrite <- !Z.pow_add_r by lia. f_equal. lia. }
  rewrite P1, P2 in HE. clearbody q. clear P1 P2. set (t := 2 ^ (8 * e)) in *. assert (Ht : 0 < t) by (apply Z.pow_pos_nonneg; lia). clearbody t.
  assert (HM : m = (c * 2 ^ 24 - 2 ^ (96 - 8 * e) * q) * 2 ^ 32) by nia.
  set (k := c * 2 ^ 24 - 2 ^ (96 - 8 * e) * q) in HM. clearbody k. lia.
Qed.
Lemma decode_never n T : 0 <= n < 2 ^ 32 -> 2 ^ 130 <= modulus -> decode_target n = Ok T ->
  fmk (compact_target (swap32 n)) <> 0 -> T <> fmk (compact_target (swap32 n)).
Proof.
  intros Hn HP HT HC HE. destruct (swap_facts n Hn) as [Bs Hs].
  destruct overflow_checks eqn:HO.
  { rewrite decode_checked in HT by auto. destruct (_ && _); [|discriminate]. congruence. }
  destruct (decode_wrap n HO Hn) as [c Hc]. rewrite Hc in HT. injection HT as HT. 
  destruct ((3 <=? n mod 256) && (n mod 256 <? 16)) eqn:HB; [|congruence].
  assert (K : 3 <= n mod 256 < 16) by lia. subst T. unfold compact_target in HE, HC. rewrite Hs in HE, HC. cbv zeta in HE, HC.
  replace (n mod 256 <? 3) with false in HE, HC by lia.
  set (m := swap32 n mod 2 ^ 23) in *. assert (Bm : 0 <= m < 2 ^ 23) by (apply Z.mod_pos_bound; lia).
  assert (P : 256 ^ (n mod 256 - 3) = 2 ^ (8 * (n mod 256 - 3))) by (change 256 with (2 ^ 8) at 1; rewrite <- Z.pow_mul_r by lia; reflexivity).
  rewrite P in HE, HC. set (e := n mod 256 - 3) in *.
  assert (Pe : 0 < 2 ^ (8 * e) <= 2 ^ 96) by (split; [apply Z.pow_pos_nonneg; lia|apply Z.pow_le_mono_r; lia]).
  assert (Bt : 0 <= m * 2 ^ (8 * e) < 2 ^ 119) by nia.
  assert (Bc : 0 <= c * 2 ^ (56 + 8 * e) mod 2 ^ 128 < 2 ^ 128) by (apply Z.mod_pos_bound; lia).
  rewrite !fmk_id in HE by (split; lia). rewrite fmk_id in HC by (split; lia).
  apply (not_multiple m e c); [|lia|exact HE]. destruct (Z.eq_dec m 0) as [M|M]; [|lia]. exfalso. apply HC. rewrite M. ring.
Qed.

(** ** The timestamp *)
Definition decode_time (n : Z) : res Z := let? b := split_bytes n in time_endian b.
Lemma time_wrap n : overflow_checks = false -> 0 <= n < 2 ^ 32 -> decode_time n = Ok (n mod 256 * 2 ^ 48).
Proof.
  intros HO Hn. unfold decode_time. rewrite split_wrap by auto. cbn [rbind]. unfold time_endian. cbn [qb0 qb1 qb2 qb3]. unfold u64_add, u64_shl.
  assert (P : forall x, 0 <= x mod 2 ^ 64) by (intros x; apply Z.mod_pos_bound; lia).
  rewrite !checked_wrap by (auto; lia). cbn [rbind]. rewrite !shl_wrap by (auto; lia). cbn [rbind]. rewrite !mod64.
  rewrite shl_wrap by (auto; lia). cbn [rbind]. rewrite shl_wrap by (auto; lia). rewrite !mod64.
  assert (H1 : forall a x k, 6 <= k <= 64 -> (a + x * 2 ^ k mod 2 ^ 64) mod 64 = a mod 64).
  { intros a x k Hk. rewrite <- Zplus_mod_idemp_r, mod64. replace (x * 2 ^ k) with (x * 2 ^ (k - 6) * 64).
    - rewrite Z.mod_mul by lia. now rewrite Z.add_0_r.
    - change 64 with (2 ^ 6). rewrite <- Z.mul_assoc, <- Z.pow_add_r by lia. do 2 f_equal. lia. }
  rewrite !H1 by lia. change (24 mod 64) with 24. change (16 mod 64) with 16. change (8 mod 64) with 8.
  assert (Bm : 0 <= n mod 256 < 256) by (apply Z.mod_pos_bound; lia).
  rewrite (Z.mod_small (n mod 256 * 2 ^ 24)) by lia. rewrite (Z.mod_small (n mod 256 * 2 ^ 24 * 2 ^ 16)) by lia.
  rewrite Z.mod_small by lia. f_equal. lia.
Qed.
Lemma time_checked n : overflow_checks = true -> 0 <= n < 2 ^ 32 -> decode_time n = if n <? 256 then Ok (n * 2 ^ 48) else Panic.
Proof.
  intros HO Hn. unfold decode_time. rewrite split_checked by auto. destruct (Z.ltb_spec n (2 ^ 16)) as [H|H].
  2:{ replace (n <? 256) with false by lia. reflexivity. }
  cbn [rbind]. unfold time_endian. cbn [qb0 qb1 qb2 qb3]. unfold u64_add, u64_shl.
  assert (B : 0 <= n / 256 < 256) by (split; [apply Z.div_pos; lia|apply Z.div_lt_upper_bound; lia]).
  rewrite !checked_in by lia. cbn [rbind]. destruct (Z.ltb_spec n 256) as [H2|H2].
  - rewrite (Z.div_small n 256), (Z.mod_small n 256) by lia. rewrite shl_in by lia. cbn [rbind]. rewrite shl_in by lia. cbn [rbind]. rewrite shl_in by lia. f_equal.
    change (24 + 0 * 2 ^ 40) with 24. change (16 + 0) with 16. change (8 + 0 * 2 ^ 40) with 8.
    rewrite (Z.mod_small (n * 2 ^ 24)) by lia. rewrite (Z.mod_small (n * 2 ^ 24 * 2 ^ 16)) by lia. rewrite Z.mod_small by lia. lia.
  - assert (B2 : 1 <= n / 256) by (apply Z.div_le_lower_bound; lia). rewrite (shl_out 64 _ (24 + _)) by lia. reflexivity.
Qed.
Lemma decode_time_val n t : 0 <= n < 2 ^ 32 -> decode_time n = Ok t -> t = n mod 256 * 2 ^ 48.
Proof.
  intros Hn H. destruct overflow_checks eqn:HO.
  - rewrite time_checked in H by auto. destruct (Z.ltb_spec n 256); [|discriminate]. injection H as <-. now rewrite Z.mod_small by lia.
  - rewrite time_wrap in H by auto. congruence.
Qed.
Lemma time_never n t : 0 <= n < 2 ^ 32 -> decode_time n = Ok t -> t = swap32 n -> swap32 n = 0.
Proof.
  intros Hn H HE. apply decode_time_val in H; auto. destruct (swap_facts n Hn) as [B HS].
  assert (Bm : 0 <= n mod 256 < 256) by (apply Z.mod_pos_bound; lia). lia.
Qed.
End Bytes.

(** ** The laid-out words against the fields of the header *)
Lemma time_field_swap h : header_ok h -> time_field h = swap32 (nth 8 h 0 mod 2 ^ 32) /\ 0 <= nth 8 h 0 mod 2 ^ 32 < 2 ^ 32.
Proof.
  intros H. destruct (ten h H) as (a & b & c & d & e & f & g & i & j & k & -> & HF).
  repeat match goal with H : Forall _ (_ :: _) |- _ => inversion H; clear H; subst end.
  split; [|apply Z.mod_pos_bound; lia]. cbn [nth].
  unfold time_field, header_bytes, slice, le_int, word_bytes, swap32. cbn [flat_map seq map app skipn firstn value_of Nat.sub Z.of_nat Pos.of_succ_nat Pos.succ].
  change (256 ^ 3) with 16777216. change (256 ^ 2) with 65536. change (256 ^ 1) with 256. change (256 ^ 0) with 1.
  change (2 ^ 32) with 4294967296. change (2 ^ 24) with 16777216. change (2 ^ 16) with 65536. change (2 ^ 8) with 256.
  Z.to_euclidean_division_equations. lia.
Qed.
Lemma nbits_field_swap h : header_ok h -> nbits_field h = swap32 (nth 9 h 0 / 2 ^ 32) /\ 0 <= nth 9 h 0 / 2 ^ 32 < 2 ^ 32.
Proof.
  intros H. destruct (ten h H) as (a & b & c & d & e & f & g & i & j & k & -> & HF).
  repeat match goal with H : Forall _ (_ :: _) |- _ => inversion H; clear H; subst end. cbn [nth].
  split; [|split; [apply Z.div_pos; lia|apply Z.div_lt_upper_bound; lia]].
  unfold nbits_field, header_bytes, slice, le_int, word_bytes, swap32. cbn [flat_map seq map app skipn firstn value_of Nat.sub Z.of_nat Pos.of_succ_nat Pos.succ].
  change (256 ^ 7) with 72057594037927936. change (256 ^ 6) with 281474976710656. change (256 ^ 5) with 1099511627776. change (256 ^ 4) with 4294967296.
  change (2 ^ 32) with 4294967296. change (2 ^ 24) with 16777216. change (2 ^ 16) with 65536. change (2 ^ 8) with 256. change (2 ^ 64) with 18446744073709551616 in *.
  Z.to_euclidean_division_equations. lia.
Qed.

(** ** In terms of the fields of the header *)
Section Fields.
Context {E : Env} {W : Wf E}.
Lemma swap_low n : 0 <= n < 2 ^ 32 -> (swap32 n mod 2 ^ 16 =? 0) = (n <? 2 ^ 16).
Proof.
  intros Hn. unfold swap32.
  assert (B0 : 0 <= n / 2 ^ 24 < 256) by (split; [apply Z.div_pos; lia|apply Z.div_lt_upper_bound; lia]).
  assert (B1 : 0 <= n / 2 ^ 16 mod 256 < 256) by (apply Z.mod_pos_bound; lia).
  replace (n / 2 ^ 24 + 2 ^ 8 * (n / 2 ^ 16 mod 256) + 2 ^ 16 * (n / 2 ^ 8 mod 256) + 2 ^ 24 * (n mod 256))
    with (n / 2 ^ 24 + 2 ^ 8 * (n / 2 ^ 16 mod 256) + (n / 2 ^ 8 mod 256 + 2 ^ 8 * (n mod 256)) * 2 ^ 16) by ring.
  rewrite Z.mod_add, Z.mod_small by lia.
  assert (E16 : n / 2 ^ 16 = n / 2 ^ 24 * 256 + n / 2 ^ 16 mod 256).
  { replace (2 ^ 24) with (2 ^ 16 * 256) by lia. rewrite <- Z.div_div by lia. pose proof (Z.div_mod (n / 2 ^ 16) 256). lia. }
  destruct (Z.ltb_spec n (2 ^ 16)) as [H|H].
  - rewrite (Z.div_small n (2 ^ 16)) in * by lia. lia.
  - assert (1 <= n / 2 ^ 16) by (apply Z.div_le_lower_bound; lia). lia.
Qed.
Theorem top_target_checked h : overflow_checks = true -> header_ok h ->
  (let? b := split_bytes (nth 9 h 0 / 2 ^ 32) in target_closure b) =
  if (nbits_field h mod 2 ^ 16 =? 0) && (3 <=? nbits_field h / 2 ^ 24) && (nbits_field h / 2 ^ 24 <? 32) then Ok 0 else Panic.
Proof.
  intros HO H. destruct (nbits_field_swap h H) as [-> B]. fold (decode_target (nth 9 h 0 / 2 ^ 32)). rewrite decode_checked by auto.
  rewrite swap_low by auto. now rewrite (proj2 (swap_facts _ B)).
Qed.
Theorem top_target_unchecked h : overflow_checks = false -> header_ok h -> 16 <= nbits_field h / 2 ^ 24 ->
  (let? b := split_bytes (nth 9 h 0 / 2 ^ 32) in target_closure b) = Ok 0.
Proof.
  intros HO H. destruct (nbits_field_swap h H) as [-> B]. rewrite (proj2 (swap_facts _ B)). now apply decode_wrap_zero.
Qed.
Theorem top_target_never h T : header_ok h -> 2 ^ 130 <= modulus ->
  (let? b := split_bytes (nth 9 h 0 / 2 ^ 32) in target_closure b) = Ok T ->
  compact_target (nbits_field h) mod modulus <> 0 -> T <> compact_target (nbits_field h) mod modulus.
Proof. intros H. destruct (nbits_field_swap h H) as [-> B]. now apply decode_never. Qed.
Theorem top_time_checked h : overflow_checks = true -> header_ok h ->
  (let? b := split_bytes (nth 8 h 0 mod 2 ^ 32) in time_endian b) = if time_field h mod 2 ^ 24 =? 0 then Ok (time_field h * 2 ^ 24) else Panic.
Proof.
  intros HO H. destruct (time_field_swap h H) as [-> B]. set (n := nth 8 h 0 mod 2 ^ 32) in *. fold (decode_time n). rewrite time_checked by auto.
  assert (B0 : 0 <= n / 2 ^ 24 < 256) by (split; [apply Z.div_pos; lia|apply Z.div_lt_upper_bound; lia]).
  assert (B1 : 0 <= n / 2 ^ 16 mod 256 < 256) by (apply Z.mod_pos_bound; lia).
  assert (B2 : 0 <= n / 2 ^ 8 mod 256 < 256) by (apply Z.mod_pos_bound; lia).
  assert (EM : swap32 n mod 2 ^ 24 = n / 2 ^ 24 + 2 ^ 8 * (n / 2 ^ 16 mod 256) + 2 ^ 16 * (n / 2 ^ 8 mod 256)).
  { unfold swap32. rewrite (Z.mul_comm (2 ^ 24)), Z.mod_add, Z.mod_small by lia. reflexivity. }
  assert (E16 : n / 2 ^ 16 = n / 2 ^ 24 * 256 + n / 2 ^ 16 mod 256).
  { replace (2 ^ 24) with (2 ^ 16 * 256) by lia. rewrite <- Z.div_div by lia. pose proof (Z.div_mod (n / 2 ^ 16) 256). lia. }
  assert (E8 : n / 2 ^ 8 = n / 2 ^ 16 * 256 + n / 2 ^ 8 mod 256).
  { replace (2 ^ 16) with (2 ^ 8 * 256) by lia. rewrite <- Z.div_div by lia. pose proof (Z.div_mod (n / 2 ^ 8) 256). lia. }
  rewrite EM. destruct (Z.ltb_spec n 256) as [L|L].
  - assert (n / 2 ^ 8 = 0) by (apply Z.div_small; lia). assert (n / 2 ^ 16 = 0) by (apply Z.div_small; lia). assert (n / 2 ^ 24 = 0) by (apply Z.div_small; lia).
    replace (_ =? 0) with true by lia. f_equal. unfold swap32. rewrite (Z.mod_small n) by lia. lia.
  - assert (1 <= n / 2 ^ 8) by (apply Z.div_le_lower_bound; lia). replace (_ =? 0) with false by lia. reflexivity.
Qed.
Theorem top_time_unchecked h : overflow_checks = false -> header_ok h ->
  (let? b := split_bytes (nth 8 h 0 mod 2 ^ 32) in time_endian b) = Ok (time_field h / 2 ^ 24 * 2 ^ 48).
Proof.
  intros HO H. destruct (time_field_swap h H) as [-> B]. rewrite (proj2 (swap_facts _ B)). now apply time_wrap.
Qed.
Theorem top_time_never h t : header_ok h -> (let? b := split_bytes (nth 8 h 0 mod 2 ^ 32) in time_endian b) = Ok t ->
  time_field h <> 0 -> t <> time_field h.
Proof. intros H HT HN HE. destruct (time_field_swap h H) as [E1 B]. rewrite E1 in *. apply HN. now apply (time_never _ t). Qed.
End Fields.
