(** Instances of the difficulty, target and hash theorems in the Pallas scalar field. *)
From Coq Require Import ZArith Znumtheory Bool List Lia.
From Verif.Model Require Import Base CS Bellpepper Util Poly Bignat Ints Median Difficulty Fields.
From Verif.Spec Require Import Spec SpecHeader.
From Verif.Proofs Require Import Field Wp BignatEq TopBignat1 TopBignat3 TopBignat4 PrimeFields TopMedian MedianV MedianEx TopDifficulty HashP.
Import ListNotations.
Local Open Scope Z_scope.

Lemma with_two {E : Env} {W : Wf E} {A} x y (f : allocated_num -> allocated_num -> prog A) (P : res A * st -> Prop) : canon x -> canon y ->
  (forall a b s, good s -> an_at s a x -> an_at s b y -> P (run true (f a b) s)) ->
  P (run true (let! a := an_alloc (Ok x) in let! b := an_alloc (Ok y) in f a b) st_init).
Proof.
  intros Cx Cy H. destruct (two_nums x y Cx Cy) as (a & b & s & H1 & H2 & H3 & H4). specialize (H a b s H2 H3 H4).
  rewrite run_bind in H1. rewrite run_bind. destruct (run true (an_alloc (Ok x)) st_init) as [[a0| |] s0]; try discriminate.
  rewrite run_bind in H1. rewrite run_bind. destruct (run true (an_alloc (Ok y)) s0) as [[b0| |] s1]; try discriminate.
  cbn [run] in H1. injection H1 as <- <- <-. exact H.
Qed.

Lemma pallas_large : @modulus (pallas_env true) > 2 ^ 254.
Proof. reflexivity. Qed.
Lemma pallas_cap : (194 <= @CAPACITY (pallas_env true) <= 255)%nat.
Proof. rewrite pallas_capacity. lia. Qed.

Lemma C52_witness : let E := pallas_env true in
  exists b s', run true (
     let! target := an_alloc (Ok 1000) in
     let! span := an_alloc (Ok 1209601) in
     calculate_difficulty_update target span) st_init = (Ok b, s') /\ good s' /\ value b = Some 1000.
Proof.
  intros E. pose proof (wf_pallas true) as W. fold E in W. pose proof pallas_large as HP. fold E in HP.
  apply (@with_two E W _ 1000 1209601 (fun a b => calculate_difficulty_update a b) (fun r => exists b s', r = (Ok b, s') /\ good s' /\ value b = Some 1000)).
  - split; [discriminate|lia].
  - split; [discriminate|lia].
  - intros a b s G Ha Hb. destruct (@top_calculate E W a b 1000 1209601 s G Ha Hb) as (r & s' & vs & H1 & H2 & _ & _ & _ & H3); [lia|lia|exact pallas_cap|apply exact_carries_pallas|].
    exists r, s'. split; [exact H1|]. split; [exact H2|]. rewrite H3. reflexivity.
Qed.

Lemma C52_panic_witness : let E := pallas_env true in
  fst (run true (
     let! target := an_alloc (Ok 1000) in
     let! span := an_alloc (Ok 302400) in
     calculate_difficulty_update target span) st_init) = Panic.
Proof.
  intros E. pose proof (wf_pallas true) as W. fold E in W. pose proof pallas_large as HP. fold E in HP.
  apply (@with_two E W _ 1000 302400 (fun a b => calculate_difficulty_update a b) (fun r => fst r = Panic)).
  - split; [discriminate|lia].
  - split; [discriminate|lia].
  - intros a b s G Ha Hb. apply (@top_calculate_panics E W a b 302400 s G Hb); lia.
Qed.

Lemma C52_any_witness : let E := pallas_env true in
  exists b s' rho, run true (
     let! target := an_alloc (Ok 1000) in
     let! span := an_alloc (Ok 1209600) in
     calculate_difficulty_update target span) st_init = (Ok b, s') /\ value b = Some 1000 /\ sat rho s' /\ int_of rho b = 1209600000.
Proof.
  intros E. pose proof (wf_pallas true) as W. fold E in W. pose proof pallas_large as HP. fold E in HP.
  apply (@with_two E W _ 1000 1209600 (fun a b => calculate_difficulty_update a b) (fun r => exists b s' rho, r = (Ok b, s') /\ value b = Some 1000 /\ sat rho s' /\ int_of rho b = 1209600000)).
  - split; [discriminate|lia].
  - split; [discriminate|lia].
  - intros a b s G Ha Hb. destruct (@top_calculate E W a b 1000 1209600 s G Ha Hb) as (r & s' & vs & H1 & H2 & _ & _ & _ & H3); [lia|lia|exact pallas_cap|apply exact_carries_pallas|].
    destruct (@top_calculate_any E W a b 1000 1209600 1 s r s' G Ha Hb H1) as (rho & _ & K2 & K3); [lia|lia|exact pallas_cap|apply exact_carries_pallas|].
    exists r, s', rho. split; [exact H1|]. split; [rewrite H3; reflexivity|]. split; [exact K2|]. rewrite K3. reflexivity.
Qed.

Lemma C53_witness : let E := pallas_env true in
  exists s', run true (verify_difficulty_update 7 5 7 5 1209600) st_init = (Ok tt, s') /\ sat (asg s') s' /\
  exists s2 rho, run true (verify_difficulty_update 8 5 7 5 1209600) st_init = (Ok tt, s2) /\ ~ sat (asg s2) s2 /\ sat rho s2.
Proof.
  intros E. pose proof (wf_pallas true) as W. fold E in W.
  destruct (@top_verify_iff E W 7 5 7 5 1209600 st_init) as (s' & H1 & H2); [apply good_init|lia|lia|lia|lia|lia|exact pallas_cap|apply exact_carries_pallas|].
  exists s'. split; [exact H1|]. split; [apply H2; reflexivity|].
  destruct (@top_verify_iff E W 8 5 7 5 1209600 st_init) as (s2 & H3 & H4); [apply good_init|lia|lia|lia|lia|lia|exact pallas_cap|apply exact_carries_pallas|].
  destruct (@top_verify_unenforced E W 8 5 7 5 1209600 st_init s2 (asg st_init)) as (rho & _ & H5); [apply TopBignat3.good_good_for, good_init|exact H3|exact pallas_cap|apply exact_carries_pallas|].
  exists s2, rho. split; [exact H3|]. split; [|exact H5]. rewrite H4. change ((7 * 2 ^ 128 + 5) * 1209600 / (2016 * 10 * 60)) with (7 * 2 ^ 128 + 5). lia.
Qed.

Lemma C54_witness : let E := pallas_env true in
  (exists r s', run true (verify_current_hash 3 9 4 1) st_init = (Ok r, s') /\ good s' /\ boolean_at s' r true) /\
  (exists r s', run true (verify_current_hash 0 0 (2 ^ 128 - 1) 0) st_init = (Ok r, s') /\ good s' /\ boolean_at s' r false).
Proof.
  intros E. pose proof (wf_pallas true) as W. fold E in W. pose proof pallas_large as HP. fold E in HP. split.
  - apply (@top_hash_near E W 3 9 4 1 st_init); try lia. apply good_init.
  - apply (@top_hash_wrong E W 0 0 (2 ^ 128 - 1) 0 st_init); try lia. apply good_init.
Qed.

Lemma C55_witness : let E := pallas_env true in
  exists s' rho, run true (check_prev_hash [0] [0]) st_init = (Ok tt, s') /\ sat rho s'.
Proof.
  intros E. pose proof (wf_pallas true) as W. fold E in W.
  destruct (@top_prev_hash_iff E W [0] [0] st_init good_init) as (s' & H1 & _).
  destruct (@top_prev_hash_unenforced E W true [0] [0] st_init s' (asg st_init)) as (rho & _ & H2); [apply TopBignat3.good_good_for, good_init|exact H1|].
  exists s', rho. auto.
Qed.
Lemma C55_empty {E : Env} {W : Wf E} blk s : good s -> exists s', run true (check_prev_hash blk []) s = (Ok tt, s') /\ sat (asg s') s'.
Proof.
  intros G. destruct (top_prev_hash_iff blk [] s G) as (s' & H1 & H2). exists s'. split; [exact H1|]. apply H2. reflexivity.
Qed.
Lemma C55_whole {E : Env} {W : Wf E} blk hsh s : good s -> List.length hsh = 4%nat ->
  exists s', run true (check_prev_hash blk hsh) s = (Ok tt, s') /\ (sat (asg s') s' <-> words_bits hsh = sha256d (words_bits blk)).
Proof.
  intros G H. destruct (top_prev_hash_iff blk hsh s G) as (s' & H1 & H2). exists s'. split; [exact H1|]. rewrite H2.
  rewrite !firstn_all2; [reflexivity| |].
  - unfold sha256d. rewrite sha256_length. lia.
  - rewrite words_bits_length. lia.
Qed.
