(** The decoded target without overflow checks, for every header (C59), and the timestamp stage on its own (C73). *)
From Coq Require Import ZArith Znumtheory Bool String List Lia ZifyBool ZifyNat.
From Verif.Model Require Import Base Sha256 CS Bellpepper Util Poly Bignat Ints Median Difficulty HeaderStep.
From Verif.Spec Require Import Spec SpecHeader.
From Verif.Proofs Require Import Field Arith Convert Limbs HashP HeaderInts HeaderBytes HeaderPanics.
Import ListNotations.
Local Open Scope Z_scope.

Section Release.
Context {E : Env} {W : Wf E}.

Lemma mantissa_exact n : overflow_checks = false -> 0 <= n < 2 ^ 32 ->
  (let b2 := shift_b 16 n * 2 ^ 24 mod 2 ^ 64 in
   let? k1 := u64_add 16 b2 in
   let? k2 := u64_add 8 (n / 2 ^ 24) in
   let? m := u64_shl (shift_b 8 n * 2 ^ 40 mod 2 ^ 64) k1 in u64_shl m k2) =
  Ok ((shift_b 8 n * 2 ^ ((8 + n / 2 ^ 24) mod 64)) mod 256 * 2 ^ 56).
Proof.
  intros HO Hn. cbv zeta. unfold u64_add, u64_shl.
  assert (P : forall x, 0 <= x mod 2 ^ 64) by (intros x; apply Z.mod_pos_bound; lia).
  rewrite !checked_wrap by (auto; lia). cbn [rbind]. rewrite shl_wrap by (auto; lia). cbn [rbind]. rewrite shl_wrap by (auto; lia). cbn [rbind].
  rewrite !mod64.
  assert (H16 : (16 + shift_b 16 n * 2 ^ 24 mod 2 ^ 64) mod 64 = 16).
  { rewrite <- Zplus_mod_idemp_r, mod64. replace (shift_b 16 n * 2 ^ 24) with (shift_b 16 n * 2 ^ 18 * 64) by ring. rewrite Z.mod_mul by lia. reflexivity. }
  rewrite H16. rewrite !Zmult_mod_idemp_l.
  set (k := (8 + n / 2 ^ 24) mod 64).
  rewrite <- Z.mul_assoc, Zmult_mod_idemp_l.
  replace (shift_b 8 n * 2 ^ 40 * (2 ^ 16 * 2 ^ k)) with (shift_b 8 n * 2 ^ k * 2 ^ 56) by (change (2 ^ 56) with (2 ^ 40 * 2 ^ 16); ring).
  f_equal. change (2 ^ 64) with (256 * 2 ^ 56). now rewrite Z.mul_mod_distr_r by lia.
Qed.

Definition released (n : Z) : Z :=
  let b := n / 2 ^ 24 in
  if (3 <=? n mod 256) && (n mod 256 <? 16)
  then (n / 2 ^ ((8 - b) mod 64) * 2 ^ ((8 + b) mod 64) mod 256 * 2 ^ (56 + 8 * (n mod 256 - 3))) mod 2 ^ 128 mod modulus
  else 0.

Lemma decode_exact n : overflow_checks = false -> 0 <= n < 2 ^ 32 -> decode_target n = Ok (released n).
Proof.
  intros HO Hn. unfold decode_target, released. rewrite split_wrap by auto. cbn [rbind]. unfold target_closure. cbn [qb0 qb1 qb2 qb3].
  pose proof (mantissa_exact n HO Hn) as Hc. set (c := (shift_b 8 n * 2 ^ ((8 + n / 2 ^ 24) mod 64)) mod 256) in Hc.
  assert (Bm : 0 <= n mod 256 < 256) by (apply Z.mod_pos_bound; lia).
  unfold rbind at 1 2 3 in Hc. unfold rbind at 1 2 3 4.
  destruct (u64_add 16 _) as [k1| |]; try discriminate Hc. destruct (u64_add 8 _) as [k2| |]; try discriminate Hc.
  destruct (u64_shl _ k1) as [m| |]; try discriminate Hc. rewrite Hc. unfold u64_sub. rewrite checked_wrap by (auto; lia). cbn [rbind].
  assert (Z0 : canon 0) by apply canon_0.
  assert (HZ : forall s, fmul (from_u128 s) (from_u128 (c * 2 ^ 56 * 2 ^ 104 mod 2 ^ 128)) = 0).
  { intros s. replace (c * 2 ^ 56 * 2 ^ 104) with (c * 2 ^ 32 * 2 ^ 128) by (replace (2 ^ 32 * 2 ^ 128) with (2 ^ 56 * 2 ^ 104) by reflexivity; lia).
    rewrite Z.mod_mul by lia. unfold fmul, from_u128. rewrite <- (fmk_id 0) by auto. apply eqp_eq. rewrite !eqp_fmk. apply eqp_ring. ring. }
  destruct (Z.leb_spec 13 ((n mod 256 - 3) mod 2 ^ 64)) as [H|H].
  - replace ((3 <=? n mod 256) && (n mod 256 <? 16)) with false.
    2:{ symmetry. destruct (Z.le_gt_cases 3 (n mod 256)) as [K|K]; [|lia]. rewrite Z.mod_small in H by lia. lia. }
    unfold u128_shl. rewrite shl_in by lia. cbn [rbind]. rewrite checked_wrap by (auto; lia). cbn [rbind].
    unfold u64_mul. rewrite checked_wrap by (auto; lia). cbn [rbind]. rewrite shl_wrap by (auto; try lia; apply Z.mod_pos_bound; lia). cbn [rbind].
    change (8 * 13) with 104. now rewrite HZ.
  - assert (K : 3 <= n mod 256 < 16).
    { destruct (Z.le_gt_cases 3 (n mod 256)) as [K|K].
      - rewrite Z.mod_small in H by lia. lia.
      - exfalso. assert (HE : (n mod 256 - 3) mod 2 ^ 64 = n mod 256 - 3 + 2 ^ 64).
        { symmetry. apply (Z.mod_unique_pos _ _ (-1)); lia. }
        lia. }
    replace ((3 <=? n mod 256) && (n mod 256 <? 16)) with true by lia. rewrite Z.mod_small by lia.
    unfold u64_mul. rewrite checked_in by lia. cbn [rbind]. unfold u128_shl. rewrite shl_in by lia. cbn [rbind]. unfold from_u128, fmk.
    do 3 f_equal. fold (shift_b 8 n). fold c. rewrite Z.pow_add_r by lia. ring.
Qed.

Lemma swap_lowest n : 0 <= n < 2 ^ 32 -> swap32 n mod 256 = n / 2 ^ 24.
Proof.
  intros Hn. unfold swap32.
  assert (B0 : 0 <= n / 2 ^ 24 < 256) by (split; [apply Z.div_pos; lia|apply Z.div_lt_upper_bound; lia]).
  replace (n / 2 ^ 24 + 2 ^ 8 * (n / 2 ^ 16 mod 256) + 2 ^ 16 * (n / 2 ^ 8 mod 256) + 2 ^ 24 * (n mod 256))
    with (n / 2 ^ 24 + (n / 2 ^ 16 mod 256 + 2 ^ 8 * (n / 2 ^ 8 mod 256) + 2 ^ 16 * (n mod 256)) * 256) by ring.
  rewrite Z.mod_add, Z.mod_small by lia. reflexivity.
Qed.

Theorem top_target_release h : overflow_checks = false -> header_ok h ->
  let n := nth 9 h 0 / 2 ^ 32 in
  let b := nbits_field h mod 256 in
  let e := nbits_field h / 2 ^ 24 in
  (let? q := split_bytes n in target_closure q) =
  Ok (if (3 <=? e) && (e <? 16)
      then (n / 2 ^ ((8 - b) mod 64) * 2 ^ ((8 + b) mod 64) mod 256 * 2 ^ (56 + 8 * (e - 3))) mod 2 ^ 128 mod modulus
      else 0).
Proof.
  intros HO H. cbv zeta. destruct (nbits_field_swap h H) as [-> B]. fold (decode_target (nth 9 h 0 / 2 ^ 32)).
  rewrite decode_exact by auto. unfold released. now rewrite (proj2 (swap_facts _ B)), (swap_lowest _ B).
Qed.

Theorem top_target_mostly h : overflow_checks = false -> header_ok h -> nbits_field h mod 64 < 56 ->
  (let? q := split_bytes (nth 9 h 0 / 2 ^ 32) in target_closure q) = Ok 0.
Proof.
  intros HO H Hb. rewrite top_target_release by auto. f_equal. destruct (_ && _) eqn:HB; [|reflexivity].
  set (b := nbits_field h mod 256). assert (Hk : 8 <= (8 + b) mod 64).
  { assert (HM : b mod 64 = nbits_field h mod 64).
    { unfold b. change 256 with (64 * 4). rewrite Z.rem_mul_r by lia. rewrite (Z.mul_comm 64), Z.mod_add by lia. apply Z.mod_mod. lia. }
    rewrite <- Zplus_mod_idemp_r, HM. pose proof (Z.mod_pos_bound (nbits_field h) 64 ltac:(lia)). rewrite Z.mod_small by lia. lia. }
  replace (2 ^ ((8 + b) mod 64)) with (2 ^ ((8 + b) mod 64 - 8) * 256).
  - rewrite Z.mul_assoc, Z.mod_mul by lia. pose proof wf_two. rewrite Z.mul_0_l, !Z.mod_0_l by lia. reflexivity.
  - change 256 with (2 ^ 8). rewrite <- Z.pow_add_r by lia. f_equal. lia.
Qed.

Theorem top_time_panics h z s : good s -> header_ok h -> 2 ^ 57 <= modulus -> fst (run true (stage_time h z) s) = Panic.
Proof. intros G H HP. assert (Hs : one_ok s) by (intros rho Ha; apply (G rho Ha)). now apply stage_time_panics. Qed.
End Release.
