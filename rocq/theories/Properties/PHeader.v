(** C56-C63, C73-C75: the step circuit of header_step.rs. *)
From Coq Require Import ZArith Bool List.
From Verif.Model Require Import Base Sha256 CS Bellpepper Util Poly Bignat Ints Median Difficulty HeaderStep Fields.
From Verif.Spec Require Import Spec SpecHeader SpecChain.
From Verif.Proofs Require Import TargetRelease PowHigh Prime PrimeFields HeaderBytes HeaderPanics HeaderP HeaderW HeaderOut HeaderEx.
Import ListNotations.
Local Open Scope Z_scope.

(** No header, no state, no mode: the step never returns. *)
Theorem C56_synthesize_never_returns : forall (E : Env) wit h z s,
  fst (run wit (synthesize h z) s) = Panic.
Proof. exact @top_synthesize_panics. Qed.
Print Assumptions C56_synthesize_never_returns.

(** Without witnesses the step stops after the 262 constraints of the previous-hash comparison. *)
Theorem C57_shape_stops_early : forall (E : Env) h z s, header_ok h -> z <> [] ->
  exists s', run false (synthesize h z) s = (Panic, s') /\ List.length (st_cons s') = (List.length (st_cons s) + 262)%nat.
Proof. exact @top_synthesize_shape. Qed.
Print Assumptions C57_shape_stops_early.
Example C57_case : header_ok block_123456.
Proof. exact block_ok_123456. Qed.

(** The previous hash of the header is accepted. *)
Theorem C58_prev_accepts : forall (E : Env) (W : Wf E) h z z0 s,
  good s -> header_ok h -> nth_error z 0 = Some z0 -> prev_hash_field h < 2 ^ 255 ->
  an_at s z0 (prev_hash_field h mod modulus) ->
  exists a s', run true (stage_prev_hash h z) s = (Ok a, s') /\ good s' /\ an_at s' a (prev_hash_field h mod modulus).
Proof. exact @top_prev_accepts. Qed.
Print Assumptions C58_prev_accepts.

(** Any other value panics. *)
Theorem C58_prev_rejects : forall (E : Env) (W : Wf E) h z z0 v s,
  good s -> header_ok h -> nth_error z 0 = Some z0 -> prev_hash_field h < 2 ^ 255 ->
  an_at s z0 v -> v <> prev_hash_field h mod modulus -> fst (run true (stage_prev_hash h z) s) = Panic.
Proof. exact @top_prev_rejects. Qed.
Print Assumptions C58_prev_rejects.

(** From 2^255 on: a panic with overflow checks, a comparison with another number without. *)
Theorem C58_prev_high : forall (E : Env) (W : Wf E) h z z0 v s,
  good s -> header_ok h -> nth_error z 0 = Some z0 -> 2 ^ 255 <= prev_hash_field h -> an_at s z0 v ->
  (overflow_checks = true -> fst (run true (stage_prev_hash h z) s) = Panic) /\
  (overflow_checks = false ->
     (exists a s', run true (stage_prev_hash h z) s = (Ok a, s')) <-> v = (prev_hash_field h - 2 ^ 255 + 2 ^ 127) mod modulus).
Proof. exact @top_prev_high. Qed.
Print Assumptions C58_prev_high.
Example C58_case : let E := pallas_env true in
  let vs := [18283544428642297129396529020735695233361821945456783020785813] in
  exists a s', run true (stage_prev_hash block_123456 [vnum vs 0]) (vals_st vs) = (Ok a, s') /\ good s'.
Proof. exact C58_witness. Qed.
Example C58_reject_case : let E := pallas_env true in
  fst (run true (stage_prev_hash block_123456 [vnum [7] 0]) (vals_st [7])) = Panic.
Proof. exact C58_reject_witness. Qed.
Example C58_high_case : header_ok high_header /\ 2 ^ 255 <= prev_hash_field high_header.
Proof. exact C58_high_witness. Qed.

(** With overflow checks the decoded target is 0 or the decoding panics. *)
Theorem C59_target_checked : forall (E : Env) (W : Wf E) h, overflow_checks = true -> header_ok h ->
  (let? b := split_bytes (nth 9 h 0 / 2 ^ 32) in target_closure b) =
  if (nbits_field h mod 2 ^ 16 =? 0) && (3 <=? nbits_field h / 2 ^ 24) && (nbits_field h / 2 ^ 24 <? 32) then Ok 0 else Panic.
Proof. exact @top_target_checked. Qed.
Print Assumptions C59_target_checked.

(** Without them it is 0 for every exponent from 16 on, which covers every block mined so far. *)
Theorem C59_target_unchecked : forall (E : Env) (W : Wf E) h,
  overflow_checks = false -> header_ok h -> 16 <= nbits_field h / 2 ^ 24 ->
  (let? b := split_bytes (nth 9 h 0 / 2 ^ 32) in target_closure b) = Ok 0.
Proof. exact @top_target_unchecked. Qed.
Print Assumptions C59_target_unchecked.

(** What it is for every header: the bytes of nBits read in the opposite order, shifted by amounts that depend on the lowest byte. *)
Theorem C59_target_release : forall (E : Env) (W : Wf E) h, overflow_checks = false -> header_ok h ->
  let n := nth 9 h 0 / 2 ^ 32 in
  let b := nbits_field h mod 256 in
  let e := nbits_field h / 2 ^ 24 in
  (let? q := split_bytes n in target_closure q) =
  Ok (if (3 <=? e) && (e <? 16)
      then (n / 2 ^ ((8 - b) mod 64) * 2 ^ ((8 + b) mod 64) mod 256 * 2 ^ (56 + 8 * (e - 3))) mod 2 ^ 128 mod modulus
      else 0).
Proof. exact @top_target_release. Qed.
Print Assumptions C59_target_release.

(** It is 0 unless bits 3, 4 and 5 of nBits are all set. *)
Theorem C59_target_mostly : forall (E : Env) (W : Wf E) h, overflow_checks = false -> header_ok h -> nbits_field h mod 64 < 56 ->
  (let? q := split_bytes (nth 9 h 0 / 2 ^ 32) in target_closure q) = Ok 0.
Proof. exact @top_target_mostly. Qed.
Print Assumptions C59_target_mostly.
Example C59_release_case : let E := pallas_env false in let h := repeat 0 9 ++ [0x3812340500000000] in
  header_ok h /\ nbits_field h = 0x05341238 /\ compact_target (nbits_field h) = 0x341238 * 2 ^ 16 /\
  (let? q := split_bytes (nth 9 h 0 / 2 ^ 32) in target_closure q) = Ok (18 * 2 ^ 72).
Proof. split; [split; [reflexivity|repeat constructor; discriminate]|vm_compute; repeat split; reflexivity]. Qed.

(** In no case is a non-zero target decoded correctly. *)
Theorem C59_target_refuted : forall (E : Env) (W : Wf E) h T, header_ok h -> 2 ^ 130 <= modulus ->
  (let? b := split_bytes (nth 9 h 0 / 2 ^ 32) in target_closure b) = Ok T ->
  compact_target (nbits_field h) mod modulus <> 0 -> T <> compact_target (nbits_field h) mod modulus.
Proof. exact @top_target_never. Qed.
Print Assumptions C59_target_refuted.
Example C59_case : header_ok block_123456 /\ nbits_field block_123456 = 0x1a6a93b3 /\
  compact_target (nbits_field block_123456) = 0x6a93b3 * 2 ^ 184 /\
  (let E := pallas_env true in (let? b := split_bytes (nth 9 block_123456 0 / 2 ^ 32) in target_closure b) = Panic) /\
  (let E := pallas_env false in (let? b := split_bytes (nth 9 block_123456 0 / 2 ^ 32) in target_closure b) = Ok 0).
Proof. exact C59_witness. Qed.

(** With overflow checks only multiples of 2^24 seconds are decoded, to 2^24 times their value. *)
Theorem C60_time_checked : forall (E : Env) h, overflow_checks = true -> header_ok h ->
  (let? b := split_bytes (nth 8 h 0 mod 2 ^ 32) in time_endian b) =
  if time_field h mod 2 ^ 24 =? 0 then Ok (time_field h * 2 ^ 24) else Panic.
Proof. exact @top_time_checked. Qed.
Print Assumptions C60_time_checked.

(** Without them the result is the high-order byte of the timestamp, shifted by 48 bits. *)
Theorem C60_time_unchecked : forall (E : Env) h, overflow_checks = false -> header_ok h ->
  (let? b := split_bytes (nth 8 h 0 mod 2 ^ 32) in time_endian b) = Ok (time_field h / 2 ^ 24 * 2 ^ 48).
Proof. exact @top_time_unchecked. Qed.
Print Assumptions C60_time_unchecked.

(** In no case is a non-zero timestamp decoded correctly. *)
Theorem C60_time_refuted : forall (E : Env) h t, header_ok h ->
  (let? b := split_bytes (nth 8 h 0 mod 2 ^ 32) in time_endian b) = Ok t -> time_field h <> 0 -> t <> time_field h.
Proof. exact @top_time_never. Qed.
Print Assumptions C60_time_refuted.
Example C60_case : header_ok block_123456 /\ time_field block_123456 = 1305200806 /\
  (let E := pallas_env true in (let? b := split_bytes (nth 8 block_123456 0 mod 2 ^ 32) in time_endian b) = Panic) /\
  (let E := pallas_env false in (let? b := split_bytes (nth 8 block_123456 0 mod 2 ^ 32) in time_endian b) = Ok (0x4d * 2 ^ 48)).
Proof. exact C60_witness. Qed.

(** The work of a target of 0, or above the maximum, cannot be computed. *)
Theorem C61_work_panics : forall (E : Env) (W : Wf E) target T s,
  good s -> an_at s target T -> max_target < modulus -> T = 0 \/ max_target < T ->
  fst (run true (stage_work target) s) = Panic.
Proof. exact @top_work_panics. Qed.
Print Assumptions C61_work_panics.

(** The work is the low 64 bits of the quotient; the constraint holds iff the product gives back the maximum. *)
Theorem C61_work_iff : forall (E : Env) (W : Wf E) target T s,
  good s -> an_at s target T -> max_target < modulus -> 0 < T <= max_target ->
  exists w s', run true (stage_work target) s = (Ok w, s') /\ an_at s' w (max_target / T mod 2 ^ 64) /\
    (sat (asg s') s' <-> (T * (max_target / T mod 2 ^ 64)) mod modulus = max_target).
Proof. exact @top_work_iff. Qed.
Print Assumptions C61_work_iff.

(** For a quotient of at most 64 bits: iff the target divides the maximum. *)
Theorem C61_work_exact : forall (E : Env) (W : Wf E) target T s,
  good s -> an_at s target T -> max_target < modulus -> 0 < T <= max_target -> max_target / T < 2 ^ 64 ->
  exists w s', run true (stage_work target) s = (Ok w, s') /\ an_at s' w (max_target / T) /\ (sat (asg s') s' <-> (T | max_target)).
Proof. exact @top_work_exact. Qed.
Print Assumptions C61_work_exact.

(** The maximum is a witness: any claimed work satisfies the constraint. *)
Theorem C61_work_refuted : forall (E : Env) wit target w s a s' rho0 T,
  good_for rho0 s -> carries_for rho0 s (lc_var (an_var target)) T ->
  run wit (stage_work target) s = (Ok a, s') -> canon w ->
  exists rho, same_on s rho rho0 /\ sat rho s' /\ feval rho (lc_var (an_var a)) = w.
Proof. exact @top_work_free. Qed.
Print Assumptions C61_work_refuted.
Example C61_case : let E := pallas_env true in
  (exists w s', run true (stage_work (vnum [max_target] 0)) (vals_st [max_target]) = (Ok w, s') /\ sat (asg s') s') /\
  (exists w s', run true (stage_work (vnum [max_target - 1] 0)) (vals_st [max_target - 1]) = (Ok w, s') /\ ~ sat (asg s') s') /\
  fst (run true (stage_work (vnum [0] 0)) (vals_st [0])) = Panic.
Proof. exact C61_witness. Qed.

(** What the constraints of the target update force. *)
Theorem C62_update_sound : forall (E : Env) (W : Wf E) wit b target z s tc ct st0 s' rho z12 z14,
  run wit (stage_target_update b target z) s = (Ok (tc, ct, st0), s') -> sat rho s' ->
  nth_error z 12 = Some z12 -> nth_error z 14 = Some z14 ->
  nth_error z 13 = Some st0 /\
  (feval rho (lc_var (an_var z14)) <> 0 -> feval rho (lc_var (an_var target)) = feval rho (lc_var (an_var z12))) /\
  (feval rho (lc_var (an_var z14)) = 0 -> feval rho (lc_var (an_var target)) = feval rho (lc_var (an_var ct))).
Proof. exact @top_update_sound. Qed.
Print Assumptions C62_update_sound.

(** The honest run satisfies them exactly when the target is the previous one, or, with counter 0, the recomputed one. *)
Theorem C62_update_iff : forall (E : Env) (W : Wf E) b target z s z12 z13 z14 T T12 t c v,
  good s -> nth_error z 12 = Some z12 -> nth_error z 13 = Some z13 -> nth_error z 14 = Some z14 ->
  an_at s target T -> an_at s z12 T12 -> an_at s z13 t -> an_at s z14 c ->
  302400 < t < 4838400 -> T12 * t / (2016 * 10 * 60) < 2 ^ 256 ->
  (194 <= CAPACITY <= 255)%nat -> exact_carries ((2 ^ 64 - 1) * 2 ^ 128) 64 ->
  calculated_closure (qb0 b) (digits (2 ^ 64) (T12 * t / (2016 * 10 * 60))) = Ok v ->
  exists tc ct s', run true (stage_target_update b target z) s = (Ok (tc, ct, z13), s') /\ an_at s' ct v /\
    (sat (asg s') s' <-> if c =? 0 then T = v else T = T12).
Proof. exact @top_update_iff. Qed.
Print Assumptions C62_update_iff.

(** The recomputed target is a witness: with counter 0 every target satisfies the constraints. *)
Theorem C62_update_refuted : forall (E : Env) (W : Wf E) wit b target z s r s' rho0 z12 z13 z14 T T12 t c,
  good_for rho0 s -> run wit (stage_target_update b target z) s = (Ok r, s') ->
  nth_error z 12 = Some z12 -> nth_error z 13 = Some z13 -> nth_error z 14 = Some z14 ->
  carries_for rho0 s (lc_var (an_var target)) T -> carries_for rho0 s (lc_var (an_var z12)) T12 ->
  carries_for rho0 s (lc_var (an_var z13)) t -> carries_for rho0 s (lc_var (an_var z14)) c ->
  (c = 0 \/ T = T12) -> t < 2 ^ 64 ->
  (194 <= CAPACITY <= 255)%nat -> exact_carries ((2 ^ 64 - 1) * 2 ^ 128) 64 ->
  exists rho, same_on s rho rho0 /\ sat rho s'.
Proof. exact @top_update_free. Qed.
Print Assumptions C62_update_refuted.

(** With overflow checks the stage panics for every exponent byte from 19 on, whatever the counter. *)
Theorem C62_update_panics : forall (E : Env) b target z s,
  overflow_checks = true -> 19 <= qb0 b < 256 -> fst (run true (stage_target_update b target z) s) = Panic.
Proof. exact @top_update_panics. Qed.
Print Assumptions C62_update_panics.

(** In both profiles it panics when the recomputed target is below 2^128. *)
Theorem C62_update_small : forall (E : Env) (W : Wf E) b target z s z12 z13 T12 t,
  good s -> nth_error z 12 = Some z12 -> nth_error z 13 = Some z13 -> an_at s z12 T12 -> an_at s z13 t ->
  302400 < t < 4838400 ->
  (194 <= CAPACITY <= 255)%nat -> exact_carries ((2 ^ 64 - 1) * 2 ^ 128) 64 ->
  T12 * t / (2016 * 10 * 60) < 2 ^ 128 -> fst (run true (stage_target_update b target z) s) = Panic.
Proof. exact @top_update_small. Qed.
Print Assumptions C62_update_small.
(** Counter 0, recomputed target 2^140: accepted as such; another target is refused by the honest assignment and accepted
    by another one. *)
Example C62_case : let E := pallas_env true in
  (exists r s', run true (stage_target_update upd_bytes (vnum (upd_vals (2 ^ 140)) 0) (upd_z (2 ^ 140))) (vals_st (upd_vals (2 ^ 140))) = (Ok r, s') /\ sat (asg s') s') /\
  (exists r s' rho, run true (stage_target_update upd_bytes (vnum (upd_vals 5) 0) (upd_z 5)) (vals_st (upd_vals 5)) = (Ok r, s') /\ ~ sat (asg s') s' /\ sat rho s').
Proof. exact C62_witness. Qed.

(** The empty vector of the code, or any vector of fewer than 16 entries: a panic. *)
Theorem C63_out_short : forall (E : Env) wit z_out z h t tg st w s, (List.length z_out < 16)%nat ->
  fst (run wit (stage_out z_out z h t tg st w) s) = Panic.
Proof. exact @top_out_short. Qed.
Print Assumptions C63_out_short.

(** With 16 entries: the result, and what its constraints force. *)
Theorem C63_out_sound : forall (E : Env) wit z_out z h t tg st w s out s',
  List.length z_out = 16%nat -> List.length z = 16%nat ->
  run wit (stage_out z_out z h t tg st w) s = (Ok out, s') ->
  exists z14 z15 o14 o15, nth_error z 14 = Some z14 /\ nth_error z 15 = Some z15 /\
    out = h :: firstn 10 (skipn 2 z) ++ [t; tg; st; o14; o15] /\
    forall rho, sat rho s' -> feval rho (lc_var (an_var o14)) = (feval rho (lc_var (an_var z14)) + 1) mod modulus /\
      feval rho (lc_var (an_var o15)) = (feval rho (lc_var (an_var z15)) + feval rho (lc_var (an_var w))) mod modulus.
Proof. exact @top_out_sound. Qed.
Print Assumptions C63_out_sound.

(** The honest run succeeds and satisfies them. *)
Theorem C63_out_complete : forall (E : Env) (W : Wf E) z_out z h t tg st w s z14 z15 c p v,
  List.length z_out = 16%nat -> List.length z = 16%nat -> good s ->
  nth_error z 14 = Some z14 -> nth_error z 15 = Some z15 -> an_at s z14 c -> an_at s z15 p -> an_at s w v ->
  exists o14 o15 s', run true (stage_out z_out z h t tg st w) s = (Ok (h :: firstn 10 (skipn 2 z) ++ [t; tg; st; o14; o15]), s') /\
    good s' /\ an_at s' o14 ((c + 1) mod modulus) /\ an_at s' o15 ((p + v) mod modulus).
Proof. exact @top_out_complete. Qed.
Print Assumptions C63_out_complete.

(** After any number of steps: epoch start unchanged, counter increased by their number and never reset, work summed,
    the last eleven timestamps kept. *)
Theorem C63_chain : forall (E : Env) (W : Wf E) z bs z', chain z bs z' -> List.length z = 16%nat -> Forall canon z ->
  nth 13 z' 0 = nth 13 z 0 /\
  nth 14 z' 0 = (nth 14 z 0 + Z.of_nat (List.length bs)) mod modulus /\
  nth 15 z' 0 = (nth 15 z 0 + sum_work bs) mod modulus /\
  firstn 11 (skipn 1 z') = last_n 11 (firstn 11 (skipn 1 z) ++ map b_time bs) /\
  nth 0 z' 0 = last (map b_hash bs) (nth 0 z 0) /\ nth 12 z' 0 = last (map b_target bs) (nth 12 z 0).
Proof. exact @top_chain. Qed.
Print Assumptions C63_chain.

(** Such chains exist from every state for every list of blocks. *)
Theorem C63_chain_exists : forall (E : Env) (W : Wf E) bs, Forall block_ok bs ->
  forall z, List.length z = 16%nat -> Forall canon z -> exists z', chain z bs z'.
Proof. exact @top_chain_exists. Qed.
Print Assumptions C63_chain_exists.
Example C63_case : let E := pallas_env true in
  exists z', chain (repeat 5 16) [Block 1 100 2 7; Block 2 200 2 9] z' /\ nth 14 z' 0 = 7 /\ nth 15 z' 0 = 21 /\
    firstn 11 (skipn 1 z') = repeat 5 9 ++ [100; 200].
Proof. exact C63_witness. Qed.

(** With an output vector of any length the honest run still panics, at the latest in the timestamp check. *)
Theorem C73_presized_refuted : forall (E : Env) (W : Wf E) z_out h z s,
  good s -> header_ok h -> 2 ^ 57 <= modulus -> fst (run true (synthesize_with z_out h z) s) = Panic.
Proof. exact @top_synthesize_with_panics. Qed.
Print Assumptions C73_presized_refuted.
(** The timestamp check refuses every header in every state. *)
Theorem C73_time_refuted : forall (E : Env) (W : Wf E) h z s,
  good s -> header_ok h -> 2 ^ 57 <= modulus -> fst (run true (stage_time h z) s) = Panic.
Proof. exact @top_time_panics. Qed.
Print Assumptions C73_time_refuted.
Example C73_case : header_ok block_123456 /\ 2 ^ 57 <= @modulus (pallas_env true).
Proof. split; [exact block_ok_123456|vm_compute; discriminate]. Qed.

(** The exact condition under which the proof-of-work stage succeeds, for a decoded target T. *)
Theorem C74_pow_iff : forall (E : Env) (W : Wf E) h T s,
  good s -> header_ok h -> 2 ^ 228 <= modulus -> digest_int (sha256d (words_bits h)) < 2 ^ 255 ->
  (let? b := split_bytes (nth 9 h 0 / 2 ^ 32) in target_closure b) = Ok T ->
  ((exists p s', run true (stage_pow h) s = (Ok p, s') /\ good s' /\ an_at s' (snd (fst p)) T /\
      an_at s' (snd p) (digest_int (sha256d (words_bits h)) mod modulus)) <->
   (digest_int (sha256d (words_bits h)) + 2 ^ 226 - T) mod modulus < 2 ^ 225) /\
  (~ (digest_int (sha256d (words_bits h)) + 2 ^ 226 - T) mod modulus < 2 ^ 225 -> fst (run true (stage_pow h) s) = Panic).
Proof. exact @top_pow_iff. Qed.
Print Assumptions C74_pow_iff.

(** Every header whose hash is below p - 2^226 is rejected, in particular every block with valid proof of work. *)
Theorem C74_pow_refuted : forall (E : Env) (W : Wf E) h s,
  good s -> header_ok h -> 2 ^ 228 <= modulus -> digest_int (sha256d (words_bits h)) < 2 ^ 255 ->
  digest_int (sha256d (words_bits h)) < modulus - 2 ^ 226 -> fst (run true (stage_pow h) s) = Panic.
Proof. exact @top_pow_never. Qed.
Print Assumptions C74_pow_refuted.
Example C74_case : header_ok block_123456 /\ digest_int (sha256d (words_bits block_123456)) < 2 ^ 255 /\
  digest_int (sha256d (words_bits block_123456)) < compact_target (nbits_field block_123456) /\
  digest_int (sha256d (words_bits block_123456)) < @modulus (pallas_env true) - 2 ^ 226.
Proof. exact C74_witness. Qed.

(** From a hash of 2^255 on, the shift of the top byte overflows: a panic with overflow checks, and without them the top bit lands at 2^127. *)
Theorem C74_pow_high_refuted : forall (E : Env) (W : Wf E) h s,
  good s -> header_ok h -> 2 ^ 228 <= modulus -> 2 ^ 255 <= digest_int (sha256d (words_bits h)) -> overflow_checks = true ->
  fst (run true (stage_pow h) s) = Panic.
Proof. exact @top_pow_high_panics. Qed.
Print Assumptions C74_pow_high_refuted.
Theorem C74_pow_high : forall (E : Env) (W : Wf E) h T s,
  good s -> header_ok h -> 2 ^ 228 <= modulus -> 2 ^ 255 <= digest_int (sha256d (words_bits h)) -> overflow_checks = false ->
  (let? b := split_bytes (nth 9 h 0 / 2 ^ 32) in target_closure b) = Ok T ->
  let v := digest_int (sha256d (words_bits h)) - 2 ^ 255 + 2 ^ 127 in
  ((exists p s', run true (stage_pow h) s = (Ok p, s') /\ good s' /\ an_at s' (snd (fst p)) T /\ an_at s' (snd p) (v mod modulus)) <->
   (v + 2 ^ 226 - T) mod modulus < 2 ^ 225) /\
  (~ (v + 2 ^ 226 - T) mod modulus < 2 ^ 225 -> fst (run true (stage_pow h) s) = Panic).
Proof. exact @top_pow_high. Qed.
Print Assumptions C74_pow_high.
Theorem C74_pow_no_target : forall (E : Env) (W : Wf E) h s, good s -> header_ok h -> 2 ^ 228 <= modulus ->
  (forall T, (let? b := split_bytes (nth 9 h 0 / 2 ^ 32) in target_closure b) <> Ok T) -> fst (run true (stage_pow h) s) = Panic.
Proof. exact @top_pow_no_target. Qed.
Print Assumptions C74_pow_no_target.

(** Every header in the checked profile: exactly those pass whose nBits is a multiple of 2^16 with exponent 3 to 31 and whose hash is
    just below the field's modulus. *)
Theorem C74_pow_checked : forall (E : Env) (W : Wf E) h s,
  good s -> header_ok h -> 2 ^ 228 <= modulus -> overflow_checks = true ->
  let H := digest_int (sha256d (words_bits h)) in let n := nbits_field h in
  let passes := n mod 2 ^ 16 = 0 /\ 3 <= n / 2 ^ 24 < 32 /\ H < 2 ^ 255 /\ modulus - 2 ^ 226 <= H mod modulus < modulus - 2 ^ 225 in
  ((exists p s', run true (stage_pow h) s = (Ok p, s') /\ good s' /\ an_at s' (snd (fst p)) 0 /\ an_at s' (snd p) (H mod modulus)) <-> passes) /\
  (~ passes -> fst (run true (stage_pow h) s) = Panic).
Proof. exact @top_pow_checked. Qed.
Print Assumptions C74_pow_checked.
Example C74_high_case : let h := firstn 9 easy_header ++ [0x0000001a00000001] in
  header_ok h /\ 2 ^ 255 <= digest_int (sha256d (words_bits h)) /\
  (let E := proth_env false in (let? b := split_bytes (nth 9 h 0 / 2 ^ 32) in target_closure b) = Ok 0 /\
   (digest_int (sha256d (words_bits h)) - 2 ^ 255 + 2 ^ 127 + 2 ^ 226 - 0) mod modulus < 2 ^ 225).
Proof. exact C74_high_witness. Qed.
Example C74_checked_case : let E := proth_env true in let h := easy_header in
  nbits_field h mod 2 ^ 16 = 0 /\ 3 <= nbits_field h / 2 ^ 24 < 32 /\ digest_int (sha256d (words_bits h)) < 2 ^ 255 /\
  modulus - 2 ^ 226 <= digest_int (sha256d (words_bits h)) mod modulus < modulus - 2 ^ 225.
Proof. exact C74_checked_witness. Qed.

(** The constraints of the first stage do not tie the previous hash to the header, nor to the state. *)
Theorem C75_prev_refuted : forall (E : Env) (W : Wf E) wit h z z0 v y s a s' rho0,
  good_for rho0 s -> header_ok h -> nth_error z 0 = Some z0 ->
  carries_for rho0 s (lc_var (an_var z0)) v -> run wit (stage_prev_hash h z) s = (Ok a, s') -> canon y ->
  exists rho, same_on s rho rho0 /\ sat rho s' /\ feval rho (lc_var (an_var a)) = y.
Proof. exact @top_prev_free. Qed.
Print Assumptions C75_prev_refuted.

(** Those of the second stage tie neither the target nor the hash to it. *)
Theorem C75_pow_refuted : forall (E : Env) (W : Wf E) wit h T y s b target hash s' rho0,
  good_for rho0 s -> header_ok h -> run wit (stage_pow h) s = (Ok (b, target, hash), s') -> canon T -> canon y ->
  exists rho, same_on s rho rho0 /\ sat rho s' /\ feval rho (lc_var (an_var target)) = T /\ feval rho (lc_var (an_var hash)) = y.
Proof. exact @top_pow_free. Qed.
Print Assumptions C75_pow_refuted.
Example C75_prev_case : let E := pallas_env true in
  let vs := [18283544428642297129396529020735695233361821945456783020785813] in
  exists a s' rho, run true (stage_prev_hash block_123456 [vnum vs 0]) (vals_st vs) = (Ok a, s') /\ sat rho s' /\ feval rho (lc_var (an_var a)) = 7.
Proof. exact C75_prev_witness. Qed.
Example C75_pow_case : let E := proth_env true in
  exists b t h s', run true (stage_pow easy_header) st_init = (Ok (b, t, h), s') /\
  exists rho, sat rho s' /\ feval rho (lc_var (an_var t)) = 12345 /\ feval rho (lc_var (an_var h)) = 1.
Proof. exact C75_witness. Qed.
