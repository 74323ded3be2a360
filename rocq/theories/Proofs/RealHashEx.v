(** Instances for the hashing circuits with real constraints. *)
From Coq Require Import ZArith Bool String List Lia.
From Verif.Model Require Import Base Fields Sha256 CS Bellpepper Util Poly Bignat Ints Median Difficulty HeaderStep ShaGadget RealHash.
From Verif.Spec Require Import Spec SpecHeader SpecSha SpecWires.
From Verif.Proofs Require Import Field Wp BignatEq Prime PrimeFields DifficultyP HeaderBytes HeaderP HeaderEx RealHashP.
Import ListNotations.
Local Open Scope Z_scope.

Definition hash_123456 : list Z := [0xcac383cdf62f68ef; 0xaa8064e35f6fc4df; 0xc8aa74610c6580ed; 0x1729000000000000].
Lemma hash_123456_ok : words_bits hash_123456 = sha256d (words_bits block_123456).
Proof. vm_compute. reflexivity. Qed.
Lemma C90_prev_witness : let E := pallas_env true in (64 <= @NUM_BITS E)%nat /\
  (exists s', run true (check_prev_hash_r1cs block_123456 hash_123456) st_init = (Ok tt, s') /\ sat (asg s') s') /\
  (exists s' rho, run true (check_prev_hash_r1cs block_123456 [0; 0; 0; 0]) st_init = (Ok tt, s') /\ ~ sat (asg s') s' /\ sat rho s').
Proof.
  intros E. pose proof (wf_pallas true) as W. fold E in W.
  assert (HN : (64 <= @NUM_BITS E)%nat) by (vm_compute; repeat constructor). split; [exact HN|]. split.
  - destruct (@top_real_prev_iff E W block_123456 hash_123456 st_init HN good_init) as (s' & Hr & HS). exists s'. split; [exact Hr|]. apply HS.
    rewrite hash_123456_ok. reflexivity.
  - destruct (@top_real_prev_iff E W block_123456 [0; 0; 0; 0] st_init HN good_init) as (s' & Hr & HS). exists s'.
    destruct (@top_real_prev_free E W true block_123456 [0; 0; 0; 0] st_init s' (asg st_init) HN) as (rho & _ & H2); [apply TopBignat3.good_good_for, good_init|exact Hr|].
    exists rho. split; [exact Hr|]. split; [|exact H2]. intros C. apply HS in C. rewrite <- hash_123456_ok in C. revert C. vm_compute. discriminate.
Qed.
Lemma C90_pow_witness : let E := proth_env true in
  exists b t h s', run true (stage_pow_r1cs easy_header) st_init = (Ok (b, t, h), s') /\ good s' /\
  exists rho, sat rho s' /\ feval rho (lc_var (an_var t)) = 12345 /\ feval rho (lc_var (an_var h)) = 1.
Proof.
  intros E. pose proof (wf_proth true) as W. fold E in W.
  assert (HN : (225 < @NUM_BITS E)%nat) by (apply PeanoNat.Nat.ltb_lt; vm_compute; reflexivity). assert (HN2 : (64 <= @NUM_BITS E)%nat) by lia.
  destruct (@split_bytes E (nth 9 easy_header 0 / 2 ^ 32)) as [b| |] eqn:HB; [|vm_compute in HB; discriminate HB|vm_compute in HB; discriminate HB].
  assert (HBT : exists T, @target_closure E b = Ok T /\ canon T).
  { assert (K : @rbind quirk_bytes Z (@split_bytes E (nth 9 easy_header 0 / 2 ^ 32)) (@target_closure E) = rbind (Ok b) (@target_closure E)) by now rewrite HB.
    cbn [rbind] in K. rewrite <- K. eexists. split; [vm_compute; reflexivity|]. split; [vm_compute; discriminate|vm_compute; reflexivity]. }
  destruct HBT as (T & HT & CT).
  destruct (@digest_scalar E (sha256d (words_bits easy_header))) as [v| |] eqn:HS; [|vm_compute in HS; discriminate HS|vm_compute in HS; discriminate HS].
  assert (HP : @pow_ok E v T = true).
  { assert (K : (match @digest_scalar E (sha256d (words_bits easy_header)), rbind (@split_bytes E (nth 9 easy_header 0 / 2 ^ 32)) (@target_closure E) with
        Ok v, Ok T => @pow_ok E v T | _, _ => false end) = true) by (vm_compute; reflexivity).
    rewrite HB, HS in K. cbn [rbind] in K. rewrite HT in K. exact K. }
  destruct (hwp_run (@stage_pow_r1cs E easy_header) st_init (fun rho p => fst (fst p) = b /\ is_an rho (snd (fst p)) T /\ is_an rho (snd p) v) good_init) as ([[b' t] h] & s' & Hr & Hg & _ & _).
  { intros rho _ one. exact (by_pow_hwp sha256_r1cs (real_honest HN2) real_sound (real_extends HN2) rho easy_header b T v one easy_ok HN HB HT CT HS HP). }
  exists b', t, h, s'. split; [exact Hr|]. split; [exact Hg|].
  destruct (@top_real_pow_free E W true easy_header 12345 1 st_init b' t h s' (asg st_init) HN2) as (rho & _ & H1 & H2 & H3).
  - apply TopBignat3.good_good_for, good_init.
  - exact Hr.
  - split; [discriminate|reflexivity].
  - split; [discriminate|reflexivity].
  - exists rho. split; [exact H1|]. split; assumption.
Qed.
