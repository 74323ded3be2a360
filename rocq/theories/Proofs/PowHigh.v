(** The proof-of-work stage on the headers C74_pow_iff leaves out: block hashes of 2^255 and above, targets that are not decoded. *)
From Coq Require Import ZArith Znumtheory Bool String List Lia ZifyBool ZifyNat.
From Verif.Model Require Import Base Sha256 CS Bellpepper Util Poly Bignat Ints Median Difficulty HeaderStep ShaGadget RealHash Fields.
From Verif.Spec Require Import Spec SpecHeader.
From Verif.Proofs Require Import Field Wp Lc Arith Convert Limbs Owp Pwp BitNum BoolP BignatEq MedianP MedianV Shp TopBignat1 TopGadget TopMedian DifficultyP TopDifficulty HashP HeaderInts HeaderBytes Panics HeaderPanics HeaderP RealHashP.
Import ListNotations.
Local Open Scope Z_scope.

Section Verdict.
Context {E : Env} {W : Wf E}.
Variable h : list Z.
Variable m : prog (quirk_bytes * allocated_num * allocated_num).
Hypothesis MH : forall rho b T v, rho ONE = 1 -> header_ok h -> (225 < NUM_BITS)%nat -> split_bytes (nth 9 h 0 / 2 ^ 32) = Ok b -> target_closure b = Ok T -> canon T ->
  digest_scalar (sha256d (words_bits h)) = Ok v -> pow_ok v T = true ->
  hwp rho m (fun p => fst (fst p) = b /\ is_an rho (snd (fst p)) T /\ is_an rho (snd p) v).
Hypothesis MP : forall rho, rho ONE = 1 -> header_ok h -> (225 < NUM_BITS)%nat ->
  (forall b T v, split_bytes (nth 9 h 0 / 2 ^ 32) = Ok b -> target_closure b = Ok T -> digest_scalar (sha256d (words_bits h)) = Ok v -> canon T /\ pow_ok v T = false) ->
  owp rho m (fun r => r = Panic).

Lemma bits_226 : 2 ^ 228 <= modulus -> (225 < NUM_BITS)%nat.
Proof. intros HP. apply num_bits_above. change (Z.of_nat 225) with 225. lia. Qed.

Lemma verdict_no_target s : good s -> header_ok h -> 2 ^ 228 <= modulus ->
  (forall T, (let? b := split_bytes (nth 9 h 0 / 2 ^ 32) in target_closure b) <> Ok T) -> fst (run true m s) = Panic.
Proof.
  intros G H HP HT. apply (owp_result _ s (fun r => r = Panic) G). intros rho Hag one. apply MP; auto using bits_226. intros b T v E1 E2 E3.
  exfalso. apply (HT T). rewrite E1. exact E2.
Qed.
Lemma verdict_high_panics s : good s -> header_ok h -> 2 ^ 228 <= modulus -> 2 ^ 255 <= digest_int (sha256d (words_bits h)) -> overflow_checks = true ->
  fst (run true m s) = Panic.
Proof.
  intros G H HP HH HO. apply (owp_result _ s (fun r => r = Panic) G). intros rho Hag one. apply MP; auto using bits_226. intros b T v E1 E2 E3.
  exfalso. unfold digest_scalar in E3. rewrite HO in E3. replace (_ <? 2 ^ 255) with false in E3 by lia. discriminate E3.
Qed.
Lemma verdict_iff T x s : good s -> header_ok h -> 2 ^ 228 <= modulus -> digest_scalar (sha256d (words_bits h)) = Ok (x mod modulus) ->
  (let? b := split_bytes (nth 9 h 0 / 2 ^ 32) in target_closure b) = Ok T ->
  ((exists p s', run true m s = (Ok p, s') /\ good s' /\ an_at s' (snd (fst p)) T /\ an_at s' (snd p) (x mod modulus)) <->
   (x + 2 ^ 226 - T) mod modulus < 2 ^ 225) /\
  (~ (x + 2 ^ 226 - T) mod modulus < 2 ^ 225 -> fst (run true m s) = Panic).
Proof.
  intros G H HP HS HT. pose proof (bits_226 HP) as HN. fold (fmk x) in *.
  assert (HP1 : 2 ^ 130 <= modulus) by lia. pose proof (decoded_range h T H HP1 HT) as RT. assert (CT : canon T) by (split; lia).
  destruct (split_bytes (nth 9 h 0 / 2 ^ 32)) as [b| |] eqn:HB; try discriminate HT. cbn [rbind] in HT.
  assert (HE : pow_ok (fmk x) T = ((x + 2 ^ 226 - T) mod modulus <? 2 ^ 225)).
  { unfold pow_ok. f_equal. apply canon_eqp; [apply fsub_canon|apply fmk_canon|]. unfold fsub, fadd. rewrite !eqp_fmk. symmetry. apply eqp_fmk. }
  assert (HPan : ~ (x + 2 ^ 226 - T) mod modulus < 2 ^ 225 -> fst (run true m s) = Panic).
  { intros HC. apply (owp_result _ s (fun r => r = Panic) G). intros rho Hag one. apply MP; auto. intros b' T' v' E1 E2 E3.
    assert (b' = b) by congruence. subst b'. assert (T' = T) by congruence. assert (v' = fmk x) by congruence. subst T' v'. split; auto. rewrite HE. lia. }
  split; [|exact HPan]. split.
  - intros (p & s' & Hr & _). destruct (Z.lt_ge_cases ((x + 2 ^ 226 - T) mod modulus) (2 ^ 225)) as [K|K]; auto. exfalso.
    assert (C : fst (run true m s) = Panic) by (apply HPan; lia). rewrite Hr in C. discriminate C.
  - intros HC. destruct (hwp_run m s (fun rho p => fst (fst p) = b /\ is_an rho (snd (fst p)) T /\ is_an rho (snd p) (fmk x)) G) as (p & s' & Hr & Hg & HA & HQ).
    { intros rho Hag one. apply MH; auto. rewrite HE. lia. }
    exists p, s'. split; [exact Hr|]. split; [exact Hg|]. split; apply (is_an_at s); auto; intros rho Ha; apply (HQ rho Ha).
Qed.

Lemma verdict_high T s : good s -> header_ok h -> 2 ^ 228 <= modulus -> 2 ^ 255 <= digest_int (sha256d (words_bits h)) -> overflow_checks = false ->
  (let? b := split_bytes (nth 9 h 0 / 2 ^ 32) in target_closure b) = Ok T ->
  let v := digest_int (sha256d (words_bits h)) - 2 ^ 255 + 2 ^ 127 in
  ((exists p s', run true m s = (Ok p, s') /\ good s' /\ an_at s' (snd (fst p)) T /\ an_at s' (snd p) (v mod modulus)) <->
   (v + 2 ^ 226 - T) mod modulus < 2 ^ 225) /\
  (~ (v + 2 ^ 226 - T) mod modulus < 2 ^ 225 -> fst (run true m s) = Panic).
Proof.
  intros G H HP HH HO HT v. apply verdict_iff; auto. unfold digest_scalar. rewrite HO. now replace (_ <? 2 ^ 255) with false by lia.
Qed.

Lemma window x : 2 ^ 228 <= modulus -> (x + 2 ^ 226) mod modulus < 2 ^ 225 <-> modulus - 2 ^ 226 <= x mod modulus < modulus - 2 ^ 225.
Proof.
  intros HP. assert (B : 0 <= x mod modulus < modulus) by (apply Z.mod_pos_bound; lia).
  rewrite <- Zplus_mod_idemp_l. set (y := x mod modulus) in *. destruct (Z.lt_ge_cases (y + 2 ^ 226) modulus) as [K|K].
  - rewrite Z.mod_small by lia. lia.
  - replace ((y + 2 ^ 226) mod modulus) with (y + 2 ^ 226 - modulus); [lia|]. apply (Z.mod_unique_pos _ _ 1); lia.
Qed.

Lemma verdict_checked s : good s -> header_ok h -> 2 ^ 228 <= modulus -> overflow_checks = true ->
  let H := digest_int (sha256d (words_bits h)) in let n := nbits_field h in
  let passes := n mod 2 ^ 16 = 0 /\ 3 <= n / 2 ^ 24 < 32 /\ H < 2 ^ 255 /\ modulus - 2 ^ 226 <= H mod modulus < modulus - 2 ^ 225 in
  ((exists p s', run true m s = (Ok p, s') /\ good s' /\ an_at s' (snd (fst p)) 0 /\ an_at s' (snd p) (H mod modulus)) <-> passes) /\
  (~ passes -> fst (run true m s) = Panic).
Proof.
  intros G H HP HO H0 n passes.
  assert (HPan : ~ passes -> fst (run true m s) = Panic).
  { intros HC. pose proof (top_target_checked h HO H) as HT. fold n in HT.
    destruct ((n mod 2 ^ 16 =? 0) && (3 <=? n / 2 ^ 24) && (n / 2 ^ 24 <? 32)) eqn:HB.
    2:{ apply verdict_no_target; auto. intros T. rewrite HT. discriminate. }
    destruct (Z.lt_ge_cases H0 (2 ^ 255)) as [K|K]; [|apply verdict_high_panics; auto].
    apply (verdict_iff 0 H0 s G H HP); auto.
    - unfold digest_scalar. fold H0. now replace (H0 <? 2 ^ 255) with true by lia.
    - rewrite Z.sub_0_r, window by auto. intros HW. apply HC. unfold passes. lia. }
  split; [|exact HPan]. split.
  - intros (p & s' & Hr & _).
    destruct (Z.eq_dec (n mod 2 ^ 16) 0); [|exfalso; assert (C : fst (run true m s) = Panic) by (apply HPan; unfold passes; lia); rewrite Hr in C; discriminate C].
    destruct (Z_le_dec 3 (n / 2 ^ 24)); [|exfalso; assert (C : fst (run true m s) = Panic) by (apply HPan; unfold passes; lia); rewrite Hr in C; discriminate C].
    destruct (Z_lt_dec (n / 2 ^ 24) 32); [|exfalso; assert (C : fst (run true m s) = Panic) by (apply HPan; unfold passes; lia); rewrite Hr in C; discriminate C].
    destruct (Z_lt_dec H0 (2 ^ 255)); [|exfalso; assert (C : fst (run true m s) = Panic) by (apply HPan; unfold passes; lia); rewrite Hr in C; discriminate C].
    destruct (Z_le_dec (modulus - 2 ^ 226) (H0 mod modulus)); [|exfalso; assert (C : fst (run true m s) = Panic) by (apply HPan; unfold passes; lia); rewrite Hr in C; discriminate C].
    destruct (Z_lt_dec (H0 mod modulus) (modulus - 2 ^ 225)); [|exfalso; assert (C : fst (run true m s) = Panic) by (apply HPan; unfold passes; lia); rewrite Hr in C; discriminate C].
    unfold passes. tauto.
  - intros (P1 & P2 & P3 & P4). apply (verdict_iff 0 H0 s G H HP).
    + unfold digest_scalar. fold H0. now replace (H0 <? 2 ^ 255) with true by lia.
    + rewrite (top_target_checked h HO H). fold n. now replace (_ && _) with true by lia.
    + rewrite Z.sub_0_r, window by auto. exact P4.
Qed.
End Verdict.

Section Tops.
Context {E : Env} {W : Wf E}.
Theorem top_pow_no_target h s : good s -> header_ok h -> 2 ^ 228 <= modulus ->
  (forall T, (let? b := split_bytes (nth 9 h 0 / 2 ^ 32) in target_closure b) <> Ok T) -> fst (run true (stage_pow h) s) = Panic.
Proof. apply verdict_no_target. intros rho one. exact (pow_panics rho one h). Qed.
Theorem top_pow_high_panics h s : good s -> header_ok h -> 2 ^ 228 <= modulus -> 2 ^ 255 <= digest_int (sha256d (words_bits h)) -> overflow_checks = true ->
  fst (run true (stage_pow h) s) = Panic.
Proof. apply verdict_high_panics; [intros rho b T0 v one; exact (pow_hwp rho one h b T0 v)|intros rho one; exact (pow_panics rho one h)]. Qed.
Theorem top_pow_high h T s : good s -> header_ok h -> 2 ^ 228 <= modulus -> 2 ^ 255 <= digest_int (sha256d (words_bits h)) -> overflow_checks = false ->
  (let? b := split_bytes (nth 9 h 0 / 2 ^ 32) in target_closure b) = Ok T ->
  let v := digest_int (sha256d (words_bits h)) - 2 ^ 255 + 2 ^ 127 in
  ((exists p s', run true (stage_pow h) s = (Ok p, s') /\ good s' /\ an_at s' (snd (fst p)) T /\ an_at s' (snd p) (v mod modulus)) <->
   (v + 2 ^ 226 - T) mod modulus < 2 ^ 225) /\
  (~ (v + 2 ^ 226 - T) mod modulus < 2 ^ 225 -> fst (run true (stage_pow h) s) = Panic).
Proof. apply verdict_high; [intros rho b T0 v one; exact (pow_hwp rho one h b T0 v)|intros rho one; exact (pow_panics rho one h)]. Qed.
Theorem top_pow_checked h s : good s -> header_ok h -> 2 ^ 228 <= modulus -> overflow_checks = true ->
  let H := digest_int (sha256d (words_bits h)) in let n := nbits_field h in
  let passes := n mod 2 ^ 16 = 0 /\ 3 <= n / 2 ^ 24 < 32 /\ H < 2 ^ 255 /\ modulus - 2 ^ 226 <= H mod modulus < modulus - 2 ^ 225 in
  ((exists p s', run true (stage_pow h) s = (Ok p, s') /\ good s' /\ an_at s' (snd (fst p)) 0 /\ an_at s' (snd p) (H mod modulus)) <-> passes) /\
  (~ passes -> fst (run true (stage_pow h) s) = Panic).
Proof. apply verdict_checked; [intros rho b T0 v one; exact (pow_hwp rho one h b T0 v)|intros rho one; exact (pow_panics rho one h)]. Qed.

Theorem top_real_pow_high h T s : good s -> header_ok h -> 2 ^ 228 <= modulus -> 2 ^ 255 <= digest_int (sha256d (words_bits h)) -> overflow_checks = false ->
  (let? b := split_bytes (nth 9 h 0 / 2 ^ 32) in target_closure b) = Ok T ->
  let v := digest_int (sha256d (words_bits h)) - 2 ^ 255 + 2 ^ 127 in
  ((exists p s', run true (stage_pow_r1cs h) s = (Ok p, s') /\ good s' /\ an_at s' (snd (fst p)) T /\ an_at s' (snd p) (v mod modulus)) <->
   (v + 2 ^ 226 - T) mod modulus < 2 ^ 225) /\
  (~ (v + 2 ^ 226 - T) mod modulus < 2 ^ 225 -> fst (run true (stage_pow_r1cs h) s) = Panic).
Proof.
  intros G H HP. pose proof (bits_228 HP) as HN. revert G H HP. apply verdict_high.
  - intros rho b T0 v. exact (by_pow_hwp sha256_r1cs (real_honest HN) real_sound (real_extends HN) rho h b T0 v).
  - intros rho. exact (by_pow_panics sha256_r1cs (real_honest HN) real_sound (real_extends HN) rho h).
Qed.
Theorem top_real_pow_checked h s : good s -> header_ok h -> 2 ^ 228 <= modulus -> overflow_checks = true ->
  let H := digest_int (sha256d (words_bits h)) in let n := nbits_field h in
  let passes := n mod 2 ^ 16 = 0 /\ 3 <= n / 2 ^ 24 < 32 /\ H < 2 ^ 255 /\ modulus - 2 ^ 226 <= H mod modulus < modulus - 2 ^ 225 in
  ((exists p s', run true (stage_pow_r1cs h) s = (Ok p, s') /\ good s' /\ an_at s' (snd (fst p)) 0 /\ an_at s' (snd p) (H mod modulus)) <-> passes) /\
  (~ passes -> fst (run true (stage_pow_r1cs h) s) = Panic).
Proof.
  intros G H HP. pose proof (bits_228 HP) as HN. revert G H HP. apply verdict_checked.
  - intros rho b T0 v. exact (by_pow_hwp sha256_r1cs (real_honest HN) real_sound (real_extends HN) rho h b T0 v).
  - intros rho. exact (by_pow_panics sha256_r1cs (real_honest HN) real_sound (real_extends HN) rho h).
Qed.
End Tops.
