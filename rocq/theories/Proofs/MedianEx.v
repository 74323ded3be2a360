(** Instances of the median theorems in the Pallas scalar field. *)
From Coq Require Import ZArith Znumtheory Bool List Lia Setoid Morphisms.
From Verif.Model Require Import Base CS Bellpepper Util Poly Bignat Ints Median Fields.
From Verif.Spec Require Import Spec.
From Verif.Proofs Require Import Field Wp BignatEq TopBignat1 PrimeFields TopMedian MedianV.
Import ListNotations.
Local Open Scope Z_scope.

Lemma two_nums {E : Env} {W : Wf E} x y : canon x -> canon y -> exists a b s,
  run true (let! a := an_alloc (Ok x) in let! b := an_alloc (Ok y) in Ret (a, b)) st_init = (Ok (a, b), s) /\
  good s /\ an_at s a x /\ an_at s b y.
Proof.
  intros Cx Cy.
  destruct (hwp_run (let! a := an_alloc (Ok x) in let! b := an_alloc (Ok y) in Ret (a, b)) st_init
    (fun rho r => is_an rho (fst r) x /\ is_an rho (snd r) y) good_init) as ([a b] & s & H1 & H2 & _ & H3).
  { intros rho _ one. apply hwp_bind. eapply an_alloc_hwp; [reflexivity|]. intros xa Ha.
    apply hwp_bind. eapply an_alloc_hwp; [reflexivity|]. intros xb Hb. simpl. split; apply is_an_mk; auto. }
  exists a, b, s. split; auto. split; auto. cbn [fst snd] in H3.
  split; (split; [apply (H3 _ (agree_asg s))|split; auto]); intros rho Ha one; destruct (H3 rho Ha) as [(_ & _ & A) (_ & _ & B)];
    (apply canon_eqp; [apply fmk_canon|auto|]); unfold feval; rewrite eqp_fmk; cbn [lc_var lc_eval]; [rewrite <- A|rewrite <- B]; rewrite Z.mul_1_l, Z.add_0_r; reflexivity.
Qed.

Lemma C48_witness : let E := pallas_env true in
  exists r s', run true (
     let! a := an_alloc (Ok 1) in
     let! b := an_alloc (Ok 2) in
     less_than a b 224) st_init = (Ok r, s') /\ bool_val r = Some false.
Proof.
  intros E. pose proof (wf_pallas true) as W. fold E in W.
  destruct (@two_nums E W 1 2) as (a & b & s & H1 & H2 & H3 & H4); [split; reflexivity || discriminate..|].
  destruct (@top_less_than_high E W a b 1 2 224 s H2 H3 H4) as (r & s' & R1 & _ & R2 & _); [lia|reflexivity..|].
  exists r, s'. split; [|exact R2].
  rewrite run_bind in H1. rewrite run_bind. destruct (run true (an_alloc (Ok 1)) st_init) as [[a0| |] s0]; try discriminate.
  rewrite run_bind in H1. rewrite run_bind. destruct (run true (an_alloc (Ok 2)) s0) as [[b0| |] s1]; try discriminate.
  cbn [run] in H1. injection H1 as <- <- <-. exact R1.
Qed.

Lemma C51_witness : let E := pallas_env true in
  exists r s', run true (verify_median_timestamp [30; 10; 20] 4294967295) st_init = (Ok r, s') /\ good s' /\ boolean_at s' r true.
Proof.
  intros E. pose proof (wf_pallas true) as W. fold E in W.
  apply (@top_median_larger E W); [apply good_init|reflexivity|reflexivity| |cbn; lia].
  repeat (constructor; [lia|]). constructor.
Qed.

Lemma C69_witness : let E := pallas_env true in
  exists r s' rho, run true (verify_median_timestamp [30; 10; 20] 10) st_init = (Ok r, s') /\ boolean_at s' r false /\ sat rho s' /\
    feval rho (bool_lc r 1) = 1.
Proof.
  intros E. pose proof (wf_pallas true) as W. fold E in W.
  assert (Rt : Forall (fun t => 0 <= t < 2 ^ 32) [30; 10; 20]) by (repeat (constructor; [lia|]); constructor).
  destruct (@top_median_free E W [30; 10; 20] 10 st_init true) as (r & s' & rho & H1 & H2 & H3 & _); auto using good_init; try reflexivity; try lia.
  destruct (@top_median_short E W [30; 10; 20] 10 st_init) as (r' & s'' & G1 & _ & G2);
    [apply good_init|reflexivity|lia|exact Rt|cbn; lia|].
  rewrite H1 in G1. injection G1 as <- <-. exists r, s', rho. split; [exact H1|]. split; [exact G2|]. split; [exact H2|exact H3].
Qed.
