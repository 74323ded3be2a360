(** Instances of the header-step theorems: block 123456 (examples/validate_header.rs) and small variations of it. *)
From Coq Require Import ZArith Znumtheory Bool List Lia.
From Verif.Model Require Import Base Sha256 CS Bellpepper Util Poly Bignat Ints Median Difficulty HeaderStep Fields.
From Verif.Spec Require Import Spec SpecHeader SpecChain.
From Verif.Proofs Require Import Field Wp BignatEq TopBignat1 TopBignat3 TopBignat4 PrimeFields TopMedian MedianV MedianEx TopDifficulty DifficultyEx HashP
  HeaderInts HeaderBytes HeaderPanics HeaderP HeaderW HeaderOut.
Import ListNotations.
Local Open Scope Z_scope.

Definition block_123456 : list Z := [0x010000009500c43a; 0x25c624520b5100ad; 0xf82cb9f9da72fd24; 0x47a496bc600b0000; 0x000000006cd86237;
  0x0395dedf1da2841c; 0xcda0fc489e3039de; 0x5f1ccddef0e83499; 0x1a65600ea6c8cb4d; 0xb3936a1ae3143991].
(** The same with the last byte of the previous hash set to 255. *)
Definition high_header : list Z := [0x010000009500c43a; 0x25c624520b5100ad; 0xf82cb9f9da72fd24; 0x47a496bc600b0000; 0x000000ff6cd86237;
  0x0395dedf1da2841c; 0xcda0fc489e3039de; 0x5f1ccddef0e83499; 0x1a65600ea6c8cb4d; 0xb3936a1ae3143991].
(** The same with compact target 1a000000 and nonce 0. *)
Definition easy_header : list Z := [0x010000009500c43a; 0x25c624520b5100ad; 0xf82cb9f9da72fd24; 0x47a496bc600b0000; 0x000000006cd86237;
  0x0395dedf1da2841c; 0xcda0fc489e3039de; 0x5f1ccddef0e83499; 0x1a65600ea6c8cb4d; 0x0000001a00000000].

Ltac hok := split; [reflexivity|]; repeat (constructor; [split; [discriminate|reflexivity]|]); constructor.
Lemma block_ok_123456 : header_ok block_123456. Proof. hok. Qed.
Lemma high_ok : header_ok high_header. Proof. hok. Qed.
Lemma easy_ok : header_ok easy_header. Proof. hok. Qed.

Lemma prev_123456 : prev_hash_field block_123456 = 18283544428642297129396529020735695233361821945456783020785813.
Proof. vm_compute. reflexivity. Qed.

Lemma C58_witness : let E := pallas_env true in
  let vs := [18283544428642297129396529020735695233361821945456783020785813] in
  exists a s', run true (stage_prev_hash block_123456 [vnum vs 0]) (vals_st vs) = (Ok a, s') /\ good s'.
Proof.
  intros E vs. pose proof (wf_pallas true) as W. fold E in W.
  destruct (@top_prev_accepts E W block_123456 [vnum vs 0] (vnum vs 0) (vals_st vs)) as (a & s' & H1 & H2 & _).
  - apply vals_good.
  - exact block_ok_123456.
  - reflexivity.
  - rewrite prev_123456. reflexivity.
  - rewrite prev_123456. apply (vnum_at vs 0); [|cbn; lia]. constructor; [|constructor]. split; [discriminate|reflexivity].
  - exists a, s'. split; [exact H1|exact H2].
Qed.
Lemma C58_reject_witness : let E := pallas_env true in
  fst (run true (stage_prev_hash block_123456 [vnum [7] 0]) (vals_st [7])) = Panic.
Proof.
  intros E. pose proof (wf_pallas true) as W. fold E in W.
  apply (@top_prev_rejects E W block_123456 _ (vnum [7] 0) 7); [apply vals_good|exact block_ok_123456|reflexivity| | |].
  - rewrite prev_123456. reflexivity.
  - apply (vnum_at [7] 0); [|cbn; lia]. constructor; [|constructor]. split; [discriminate|reflexivity].
  - rewrite prev_123456. discriminate.
Qed.
Lemma C58_high_witness : header_ok high_header /\ 2 ^ 255 <= prev_hash_field high_header.
Proof. split; [exact high_ok|]. vm_compute. discriminate. Qed.

Lemma C59_witness : header_ok block_123456 /\ nbits_field block_123456 = 0x1a6a93b3 /\ compact_target (nbits_field block_123456) = 0x6a93b3 * 2 ^ 184 /\
  (let E := pallas_env true in (let? b := split_bytes (nth 9 block_123456 0 / 2 ^ 32) in target_closure b) = Panic) /\
  (let E := pallas_env false in (let? b := split_bytes (nth 9 block_123456 0 / 2 ^ 32) in target_closure b) = Ok 0).
Proof. split; [exact block_ok_123456|]. repeat (split; [vm_compute; reflexivity|]). vm_compute. reflexivity. Qed.
Lemma C60_witness : header_ok block_123456 /\ time_field block_123456 = 1305200806 /\
  (let E := pallas_env true in (let? b := split_bytes (nth 8 block_123456 0 mod 2 ^ 32) in time_endian b) = Panic) /\
  (let E := pallas_env false in (let? b := split_bytes (nth 8 block_123456 0 mod 2 ^ 32) in time_endian b) = Ok (0x4d * 2 ^ 48)).
Proof. split; [exact block_ok_123456|]. repeat (split; [vm_compute; reflexivity|]). vm_compute. reflexivity. Qed.

Lemma pallas_max_target : max_target < @modulus (pallas_env true).
Proof. reflexivity. Qed.
Lemma C61_witness : let E := pallas_env true in
  (exists w s', run true (stage_work (vnum [max_target] 0)) (vals_st [max_target]) = (Ok w, s') /\ sat (asg s') s') /\
  (exists w s', run true (stage_work (vnum [max_target - 1] 0)) (vals_st [max_target - 1]) = (Ok w, s') /\ ~ sat (asg s') s') /\
  fst (run true (stage_work (vnum [0] 0)) (vals_st [0])) = Panic.
Proof.
  intros E. pose proof (wf_pallas true) as W. fold E in W.
  assert (K : forall T, 0 <= T <= max_target -> an_at (vals_st [T]) (vnum [T] 0) T).
  { intros T HT. apply (vnum_at [T] 0); [|cbn; lia]. constructor; [|constructor]. split; [lia|]. pose proof pallas_max_target as HM. fold E in HM. lia. }
  assert (M : max_target > 2) by reflexivity.
  split; [|split].
  - destruct (@top_work_exact E W (vnum [max_target] 0) max_target (vals_st [max_target])) as (w & s' & H1 & _ & H2).
    + apply vals_good. + apply K. lia. + reflexivity. + lia. + rewrite Z.div_same by lia. lia.
    + exists w, s'. split; [exact H1|]. apply H2. apply Z.divide_refl.
  - destruct (@top_work_exact E W (vnum [max_target - 1] 0) (max_target - 1) (vals_st [max_target - 1])) as (w & s' & H1 & _ & H2).
    + apply vals_good. + apply K. lia. + reflexivity. + lia. + reflexivity.
    + exists w, s'. split; [exact H1|]. intros HS. apply H2 in HS. destruct HS as [k Hk].
      assert (k = 1 \/ k <= 0 \/ 2 <= k) as [-> | [ H | H ]] by lia; nia.
  - apply (@top_work_panics E W (vnum [0] 0) 0); [apply vals_good|apply K; lia|reflexivity|now left].
Qed.

(** Counter 0, target 2^140 recomputed as itself: accepted; the same with another target: refused by the honest
    assignment, accepted by another one. *)
Definition upd_vals (T : Z) : list Z := [T; 2 ^ 140; 1209600; 0].
Definition upd_z (T : Z) : list allocated_num := repeat (vnum (upd_vals T) 0) 12 ++ [vnum (upd_vals T) 1; vnum (upd_vals T) 2; vnum (upd_vals T) 3].
Definition upd_bytes : quirk_bytes := mkQB 3 0 0 0.
Lemma upd_iff T : let E := pallas_env true in 0 <= T < 2 ^ 250 ->
  exists r s', run true (stage_target_update upd_bytes (vnum (upd_vals T) 0) (upd_z T)) (vals_st (upd_vals T)) = (Ok r, s') /\
    (sat (asg s') s' <-> T = 2 ^ 140) /\ exists rho, sat rho s'.
Proof.
  intros E HT. pose proof (wf_pallas true) as W. fold E in W.
  assert (P : 2 ^ 250 < @modulus E) by reflexivity.
  assert (F : Forall canon (upd_vals T)) by (unfold upd_vals; repeat (constructor; [split; lia|]); constructor).
  assert (A : forall i, (i < 4)%nat -> an_at (vals_st (upd_vals T)) (vnum (upd_vals T) i) (nth i (upd_vals T) 0)) by (intros i Hi; apply vnum_at; auto).
  assert (A0 := A 0%nat ltac:(lia)). assert (A1 := A 1%nat ltac:(lia)). assert (A2 := A 2%nat ltac:(lia)). assert (A3 := A 3%nat ltac:(lia)). cbn [nth upd_vals] in A0, A1, A2, A3.
  destruct (@top_update_iff E W upd_bytes (vnum (upd_vals T) 0) (upd_z T) (vals_st (upd_vals T)) (vnum (upd_vals T) 1) (vnum (upd_vals T) 2) (vnum (upd_vals T) 3) T (2 ^ 140) 1209600 0 (2 ^ 140))
    as (tc & ct & s' & H1 & _ & H2); [apply vals_good|reflexivity|reflexivity|reflexivity|exact A0|exact A1|exact A2|exact A3|lia|lia|exact pallas_cap|apply exact_carries_pallas|vm_compute; reflexivity|].
  exists (tc, ct, vnum (upd_vals T) 2), s'. split; [exact H1|]. split; [exact H2|].
  destruct (@top_update_free E W true upd_bytes (vnum (upd_vals T) 0) (upd_z T) (vals_st (upd_vals T)) (tc, ct, vnum (upd_vals T) 2) s' (asg (vals_st (upd_vals T)))
    (vnum (upd_vals T) 1) (vnum (upd_vals T) 2) (vnum (upd_vals T) 3) T (2 ^ 140) 1209600 0) as (rho & _ & H3);
    [apply TopBignat3.good_good_for, vals_good|exact H1|reflexivity|reflexivity|reflexivity| | | | |now left|lia|exact pallas_cap|apply exact_carries_pallas|].
  5: exists rho; exact H3.
  - intros rho Hs one. apply TopBignat3.same_agree in Hs. exact (proj2 (proj2 A0) rho Hs one).
  - intros rho Hs one. apply TopBignat3.same_agree in Hs. exact (proj2 (proj2 A1) rho Hs one).
  - intros rho Hs one. apply TopBignat3.same_agree in Hs. exact (proj2 (proj2 A2) rho Hs one).
  - intros rho Hs one. apply TopBignat3.same_agree in Hs. exact (proj2 (proj2 A3) rho Hs one).
Qed.
Lemma C62_witness : let E := pallas_env true in
  (exists r s', run true (stage_target_update upd_bytes (vnum (upd_vals (2 ^ 140)) 0) (upd_z (2 ^ 140))) (vals_st (upd_vals (2 ^ 140))) = (Ok r, s') /\ sat (asg s') s') /\
  (exists r s' rho, run true (stage_target_update upd_bytes (vnum (upd_vals 5) 0) (upd_z 5)) (vals_st (upd_vals 5)) = (Ok r, s') /\ ~ sat (asg s') s' /\ sat rho s').
Proof.
  intros E. split.
  - destruct (upd_iff (2 ^ 140)) as (r & s' & H1 & H2 & _); [lia|]. exists r, s'. split; [exact H1|]. apply H2. reflexivity.
  - destruct (upd_iff 5) as (r & s' & H1 & H2 & rho & H3); [lia|]. exists r, s', rho. split; [exact H1|]. split; [|exact H3]. intros HS. apply H2 in HS. discriminate HS.
Qed.

Lemma C63_witness : let E := pallas_env true in
  exists z', chain (repeat 5 16) [Block 1 100 2 7; Block 2 200 2 9] z' /\ nth 14 z' 0 = 7 /\ nth 15 z' 0 = 21 /\ firstn 11 (skipn 1 z') = repeat 5 9 ++ [100; 200].
Proof.
  intros E. pose proof (wf_pallas true) as W. fold E in W.
  assert (F : Forall canon (repeat 5 16)) by (apply Forall_forall; intros x Hx; apply repeat_spec in Hx; subst x; split; [discriminate|reflexivity]).
  destruct (@top_chain_exists E W [Block 1 100 2 7; Block 2 200 2 9]) with (z := repeat 5 16) as (z' & HC); [|reflexivity|exact F|].
  - constructor; [|constructor; [|constructor]]; (split; [split; [discriminate|reflexivity]|]; split; [split; [discriminate|reflexivity]|]; split; (split; [discriminate|reflexivity])).
  - exists z'. split; [exact HC|]. destruct (@top_chain E W _ _ _ HC eq_refl F) as (_ & H2 & H3 & H4 & _). rewrite H2, H3, H4.
    split; [reflexivity|]. split; reflexivity.
Qed.

(** A stage that succeeds, in a field of 227 bits, and the values a prover may choose. *)
Lemma C75_witness : let E := proth_env true in
  exists b t h s', run true (stage_pow easy_header) st_init = (Ok (b, t, h), s') /\
  exists rho, sat rho s' /\ feval rho (lc_var (an_var t)) = 12345 /\ feval rho (lc_var (an_var h)) = 1.
Proof.
  intros E. pose proof (wf_proth true) as W. fold E in W.
  assert (K : match fst (run true (@stage_pow E easy_header) st_init) with Ok _ => true | _ => false end = true) by (vm_compute; reflexivity).
  destruct (run true (stage_pow easy_header) st_init) as [[[[b t] h]| |] s'] eqn:Hr; try discriminate K. clear K.
  exists b, t, h, s'. split; [reflexivity|].
  destruct (@top_pow_free E W true easy_header 12345 1 st_init b t h s' (asg st_init)) as (rho & _ & H1 & H2 & H3).
  - apply TopBignat3.good_good_for, good_init.
  - exact easy_ok.
  - exact Hr.
  - split; [discriminate|reflexivity].
  - split; [discriminate|reflexivity].
  - exists rho. split; [exact H1|]. split; assumption.
Qed.
Lemma C75_prev_witness : let E := pallas_env true in
  let vs := [18283544428642297129396529020735695233361821945456783020785813] in
  exists a s' rho, run true (stage_prev_hash block_123456 [vnum vs 0]) (vals_st vs) = (Ok a, s') /\ sat rho s' /\ feval rho (lc_var (an_var a)) = 7.
Proof.
  intros E vs. pose proof (wf_pallas true) as W. fold E in W. destruct C58_witness as (a & s' & H1 & _). fold E vs in H1.
  destruct (@top_prev_free E W true block_123456 [vnum vs 0] (vnum vs 0) (prev_hash_field block_123456) 7 (vals_st vs) a s' (asg (vals_st vs))) as (rho & _ & H2 & H3).
  - apply TopBignat3.good_good_for, vals_good.
  - exact block_ok_123456.
  - reflexivity.
  - intros rho Hs one. apply TopBignat3.same_agree in Hs. rewrite prev_123456.
    destruct (@vnum_at E vs 0) as (_ & _ & C); [|cbn; lia|exact (C rho Hs one)]. constructor; [|constructor]. split; [discriminate|reflexivity].
  - exact H1.
  - split; [discriminate|reflexivity].
  - exists a, s', rho. split; [exact H1|]. split; assumption.
Qed.
(** A header whose hash meets the conditions under which the stage must panic. *)
Lemma C74_witness : header_ok block_123456 /\ digest_int (sha256d (words_bits block_123456)) < 2 ^ 255 /\
  digest_int (sha256d (words_bits block_123456)) < compact_target (nbits_field block_123456) /\
  digest_int (sha256d (words_bits block_123456)) < @modulus (pallas_env true) - 2 ^ 226.
Proof. split; [exact block_ok_123456|]. repeat (split; [vm_compute; reflexivity|]). vm_compute. reflexivity. Qed.
Lemma C74_high_witness : let h := firstn 9 easy_header ++ [0x0000001a00000001] in
  header_ok h /\ 2 ^ 255 <= digest_int (sha256d (words_bits h)) /\
  (let E := proth_env false in (let? b := split_bytes (nth 9 h 0 / 2 ^ 32) in target_closure b) = Ok 0 /\
   (digest_int (sha256d (words_bits h)) - 2 ^ 255 + 2 ^ 127 + 2 ^ 226 - 0) mod modulus < 2 ^ 225).
Proof.
  intros h. assert (HD : digest_int (sha256d (words_bits h)) = 0x946bbf4d4068a8f994ad4d87c51ddaa37de1ae1270d302ea470615a5e1f25a04) by (vm_compute; reflexivity).
  rewrite HD. split; [hok|]. split; [discriminate|]. split; vm_compute; reflexivity.
Qed.
Lemma C74_checked_witness : let E := proth_env true in let h := easy_header in
  nbits_field h mod 2 ^ 16 = 0 /\ 3 <= nbits_field h / 2 ^ 24 < 32 /\ digest_int (sha256d (words_bits h)) < 2 ^ 255 /\
  modulus - 2 ^ 226 <= digest_int (sha256d (words_bits h)) mod modulus < modulus - 2 ^ 225.
Proof.
  intros E h. assert (HD : digest_int (sha256d (words_bits h)) = 0x1d59e5d725ec6e494c5a30b188bb839ef27b3c8ea97981a2884bf3e19a6fcdc5) by (vm_compute; reflexivity).
  rewrite HD. split; [vm_compute; reflexivity|]. split; [split; [vm_compute; discriminate|vm_compute; reflexivity]|]. split; [reflexivity|].
  split; [vm_compute; discriminate|vm_compute; reflexivity].
Qed.
