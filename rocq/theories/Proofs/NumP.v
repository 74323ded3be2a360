(** Moving numbers between [Num] and [AllocatedNum]. *)
From Coq Require Import ZArith Bool List Lia.
From Verif.Model Require Import Base CS Bellpepper Util.
From Verif.Spec Require Import Spec.
From Verif.Proofs Require Import Field Arith Wp Lc.
Import ListNotations.
Local Open Scope Z_scope.

Section NumP.
Context {E : Env}.

Lemma eq_con rho x l : csat rho (R1 lc_zero lc_zero (lc_sub (lc_var x) l)) <->
  feval rho (lc_var x) = feval rho l.
Proof.
  cbn [csat]. unfold feval. rewrite <- eqp_eq, <- eqp_eq. lcs. rewrite <- (eqp_sub_0 (rho x)).
  change (0 * 0) with 0. split; intros H; symmetry; exact H.
Qed.

Lemma top_sapling_sound wit n s a s' rho : run wit (as_sapling_allocated_num n) s = (Ok a, s') -> sat rho s' ->
  feval rho (lc_var (an_var a)) = feval rho (n_lc n).
Proof.
  intros Hr Hs. apply (swp_run_any _ rho _ _ _ _ (fun a => feval rho (lc_var (an_var a)) = feval rho (n_lc n)) Hr Hs).
  unfold as_sapling_allocated_num. apply swp_bind, swp_ns. cbn [an_alloc alloc bind swp an_var].
  intros x v _ Hc. cbn [an_var]. now apply eq_con.
Qed.

Lemma top_sapling_complete n v s : good s -> num_at s n v ->
  exists a s', run true (as_sapling_allocated_num n) s = (Ok a, s') /\ good s' /\ an_at s' a v.
Proof.
  intros G (H1 & H2 & H3).
  destruct (hwp_run (as_sapling_allocated_num n) s (fun rho a => an_val a = Some v /\ feval rho (lc_var (an_var a)) = v) G)
    as (a & s' & Hr & Hg & _ & HQ).
  - intros rho Ha one. unfold as_sapling_allocated_num. rewrite H1. cbn [grab]. apply hwp_bind, hwp_ns.
    cbn [an_alloc alloc bind hwp]. exists v. split; auto. intros x Hx. cbn [an_var enforce bind hwp].
    assert (Hf : feval rho (lc_var x) = v) by (unfold feval; lcs; rewrite Hx; now apply fmk_id).
    split; [apply eq_con; rewrite Hf; symmetry; now apply H3|]. cbn. split; auto.
  - exists a, s'. split; auto. split; auto. split; [apply (HQ _ (agree_asg s'))|]. split; auto.
    intros rho Ha _. now apply HQ.
Qed.

Lemma top_sapling_exists wit n s a s' rho0 v : good_for rho0 s -> carries_for rho0 s (n_lc n) v ->
  run wit (as_sapling_allocated_num n) s = (Ok a, s') ->
  exists rho, same_on s rho rho0 /\ sat rho s' /\ feval rho (lc_var (an_var a)) = v.
Proof.
  intros G Hc Hr. pose proof (same_on_refl s rho0) as R.
  assert (Cv : v = fmk v) by (rewrite <- (Hc _ R (proj1 (G _ R))); unfold feval, fmk; now rewrite Zmod_mod).
  destruct (awp_run wit (as_sapling_allocated_num n) s rho0 [v] (fun rho a => feval rho (lc_var (an_var a)) = v) a s' G) as (rho' & K1 & K2 & K3); auto.
  - intros rho Hso one. unfold as_sapling_allocated_num. change [v] with ([v] ++ []).
    apply awp_bind. apply awp_ns. cbn [an_alloc alloc bind awp]. split; [apply md_of_not|].
    intros x w Hx _. split; auto. cbn [an_var enforce bind awp].
    assert (Hf : feval rho (lc_var x) = v) by (unfold feval; lcs; rewrite Hx; auto).
    split; [apply eq_con; rewrite Hf; symmetry; now apply Hc|]. cbn. auto.
  - exists rho'. split; auto. split; [apply K2, same_on_refl|apply K3, same_on_refl].
Qed.

Lemma top_sapling_missing n s : n_val n = None -> fst (run true (as_sapling_allocated_num n) s) = Err AssignmentMissing.
Proof. intros H. unfold as_sapling_allocated_num. rewrite H. reflexivity. Qed.

Lemma top_num_alloc v s : good s -> canon v ->
  exists n s', run true (num_alloc (Ok v)) s = (Ok n, s') /\ good s' /\ num_at s' n v.
Proof.
  intros G Hv.
  destruct (hwp_run (num_alloc (Ok v)) s (fun rho n => n_val n = Some v /\ feval rho (n_lc n) = v) G) as (n & s' & Hr & Hg & _ & HQ).
  - intros rho Ha one. cbn [num_alloc alloc bind hwp]. exists v. split; auto. intros x Hx. cbn [n_val n_lc]. split; auto.
    unfold feval. lcs. rewrite Hx. now apply fmk_id.
  - exists n, s'. split; auto. split; auto. split; [apply (HQ _ (agree_asg s'))|]. split; auto. intros rho Ha _. now apply HQ.
Qed.
Lemma top_num_alloc_free wit w s n s' rho0 v : good_for rho0 s -> canon v -> run wit (num_alloc w) s = (Ok n, s') ->
  exists rho, same_on s rho rho0 /\ sat rho s' /\ feval rho (n_lc n) = v.
Proof.
  intros G Hv Hr.
  destruct (awp_run wit (num_alloc w) s rho0 [v] (fun rho n => feval rho (n_lc n) = v) n s' G) as (rho' & K1 & K2 & K3); auto.
  - intros rho Hso one. cbn [num_alloc alloc bind awp]. split; [apply md_of_not|]. intros x u Hx _. split; auto.
    cbn [n_lc]. unfold feval. lcs. rewrite Hx. now apply fmk_id.
  - exists rho'. split; auto. split; [apply K2, same_on_refl|apply K3, same_on_refl].
Qed.
Lemma top_num_alloc_fails e s : fst (run true (num_alloc (Err e)) s) = Err e /\ fst (run true (num_alloc Panic) s) = Panic.
Proof. split; reflexivity. Qed.

Lemma top_num_from s a v : an_at s a v -> num_at s (num_from a) v.
Proof. intros (H1 & H2 & H3). split; auto. Qed.
Lemma top_num_from_wire rho a : feval rho (n_lc (num_from a)) = feval rho (lc_var (an_var a)).
Proof. reflexivity. Qed.
End NumP.
