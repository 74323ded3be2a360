(** Cases for C91 and C92. *)
From Coq Require Import ZArith NArith Znumtheory Bool List Lia.
From Verif.Model Require Import Base Fields Sha256 CS Bellpepper Util Poly Bignat Ints Median Difficulty HeaderStep ShaGadget RealHash.
From Verif.Spec Require Import Spec SpecHeader SpecSha SpecShape SpecSize.
From Verif.Proofs Require Import Field Wp BignatEq Prime PrimeFields DifficultyP HeaderBytes HeaderP HeaderEx RealHashP.
From Verif.Proofs Require Import RealHashEx ShapeP ShaShape ShaSetup ShaSizeStep.
Import ListNotations.
Local Open Scope Z_scope.

(** A prime of 255 bits and a header of hash just below it. *)
Lemma size_init {E : Env} {A} (m : prog A) a k wit x s' : has_size m 0 a k -> run wit m st_init = (Ok x, s') ->
  List.length (st_aux s') = a /\ List.length (st_cons s') = k.
Proof. intros H Hr. destruct (H _ _ _ _ Hr) as (_ & H2 & H3). split; [exact H2|exact H3]. Qed.
Definition window : Z := 67550447555 * 2 ^ 219 + 1.
Local Hint Resolve prime_2 : core.
Lemma prime_window : prime window. Proof. by_pock 3 2 219 (@nil (Z * Z)). Qed.
Definition window_env : Env := mkEnv window 32 true carry_bits_exact.
Global Instance wf_window : Wf window_env.
Proof. constructor; [apply prime_window| | |]; vm_compute; intuition discriminate. Qed.
Definition window_header : list Z := firstn 9 easy_header ++ [0x0000001a00000003].
Definition window_digest : Z := 56911139400787001737266982796873628757019055959600724917297275022018986893014.
Lemma window_digest_ok : digest_int (sha256d (words_bits window_header)) = window_digest.
Proof. vm_compute. reflexivity. Qed.
Lemma window_ok : header_ok window_header. Proof. hok. Qed.
Lemma cap_window : @CAPACITY window_env = 254%nat. Proof. vm_compute. reflexivity. Qed.
Lemma C92_pow_witness : let E := window_env in CAPACITY = 254%nat /\ List.length window_header = 10%nat /\
  exists p s', run true (stage_pow_r1cs window_header) st_init = (Ok p, s') /\ good s' /\
  List.length (st_aux s') = N.to_nat 77006 /\ List.length (st_cons s') = N.to_nat 77082.
Proof.
  intros E. pose proof wf_window as W. fold E in W. split; [exact cap_window|]. split; [reflexivity|].
  assert (HN : (225 < @NUM_BITS E)%nat) by (apply PeanoNat.Nat.ltb_lt; vm_compute; reflexivity). assert (HN2 : (64 <= @NUM_BITS E)%nat) by lia.
  destruct (@split_bytes E (nth 9 window_header 0 / 2 ^ 32)) as [b| |] eqn:HB; [|vm_compute in HB; discriminate HB|vm_compute in HB; discriminate HB].
  assert (HBT : exists T, @target_closure E b = Ok T /\ canon T).
  { assert (K : @rbind quirk_bytes Z (@split_bytes E (nth 9 window_header 0 / 2 ^ 32)) (@target_closure E) = rbind (Ok b) (@target_closure E)) by now rewrite HB.
    cbn [rbind] in K. rewrite <- K. eexists. split; [vm_compute; reflexivity|]. split; [vm_compute; discriminate|vm_compute; reflexivity]. }
  destruct HBT as (T & HT & CT).
  pose (v := @fmk E window_digest).
  assert (HS : @digest_scalar E (sha256d (words_bits window_header)) = Ok v) by (unfold digest_scalar; rewrite window_digest_ok; reflexivity).
  assert (HP : @pow_ok E v T = true).
  { assert (K : (match rbind (@split_bytes E (nth 9 window_header 0 / 2 ^ 32)) (@target_closure E) with Ok T => @pow_ok E v T | _ => false end) = true) by (vm_compute; reflexivity).
    rewrite HB in K. cbn [rbind] in K. rewrite HT in K. exact K. }
  destruct (hwp_run (@stage_pow_r1cs E window_header) st_init (fun rho p => fst (fst p) = b /\ is_an rho (snd (fst p)) T /\ is_an rho (snd p) v) good_init) as (p & s' & Hr & Hg & _ & _).
  { intros rho _ one. exact (by_pow_hwp sha256_r1cs (real_honest HN2) real_sound (real_extends HN2) rho window_header b T v one window_ok HN HB HT CT HS HP). }
  exists p, s'. split; [exact Hr|]. split; [exact Hg|].
  exact (size_init _ _ _ _ _ _ (top_size_stage_pow E window_header cap_window eq_refl) Hr).
Qed.
Lemma C92_prev_witness : let E := pallas_env true in CAPACITY = 254%nat /\ List.length block_123456 = 10%nat /\ List.length hash_123456 = 4%nat /\
  exists s', run true (check_prev_hash_r1cs block_123456 hash_123456) st_init = (Ok tt, s') /\ sat (asg s') s' /\
  List.length (st_aux s') = N.to_nat 77254 /\ List.length (st_cons s') = N.to_nat 77588.
Proof.
  intros E. assert (HC : @CAPACITY E = 254%nat) by (vm_compute; reflexivity). split; [exact HC|]. split; [reflexivity|]. split; [reflexivity|].
  destruct C90_prev_witness as (_ & (s' & Hr & HS) & _). fold E in Hr, HS. exists s'. split; [exact Hr|]. split; [exact HS|].
  exact (size_init _ _ _ _ _ _ (top_size_prev E block_123456 hash_123456 HC eq_refl eq_refl) Hr).
Qed.
(** One circuit for parameters and for the proof: setup and two honest runs on different blocks. *)
Lemma C91_prev_witness : let E := pallas_env true in exists s1 s2 s3,
  run false (check_prev_hash_r1cs (repeat 0 10) (repeat 0 4)) st_init = (Ok tt, s1) /\
  run true (check_prev_hash_r1cs block_123456 hash_123456) st_init = (Ok tt, s2) /\
  run true (check_prev_hash_r1cs block_123456 [0; 0; 0; 0]) st_init = (Ok tt, s3) /\
  st_cons s1 = st_cons s2 /\ st_cons s2 = st_cons s3.
Proof.
  intros E. pose proof (wf_pallas true) as W. fold E in W. destruct C90_prev_witness as (HN & (s2 & H2 & _) & (s3 & _ & H3 & _)). fold E in HN, H2, H3.
  destruct (top_prev_setup (repeat 0 10) (repeat 0 4) st_init W HN) as [s1 H1]. exists s1, s2, s3. split; [exact H1|]. split; [exact H2|]. split; [exact H3|].
  assert (L : same_layout st_init st_init) by (repeat split; reflexivity).
  pose proof (sh_run _ _ _ (@g_check_prev_r1cs E (repeat 0 10) block_123456 (repeat 0 4) hash_123456 eq_refl eq_refl) false true st_init st_init tt tt s1 s2 L H1 H2) as [Q1 _].
  pose proof (sh_run _ _ _ (@g_check_prev_r1cs E block_123456 block_123456 hash_123456 [0; 0; 0; 0] eq_refl eq_refl) true true st_init st_init tt tt s2 s3 L H2 H3) as [Q2 _].
  split; [apply Q1|apply Q2].
Qed.
