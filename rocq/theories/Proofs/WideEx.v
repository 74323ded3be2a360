(** A case for the division gadgets on full 64-bit limbs. *)
From Coq Require Import ZArith Lia Bool List.
From Verif.Model Require Import Base CS Bellpepper Util Poly Bignat Fields F64.
From Verif.Spec Require Import Spec SpecF64 SpecExact SpecWide.
From Verif.Proofs Require Import Wp PrimeFields F64P TopF64 Wide Residue.
Import ListNotations.
Local Open Scope Z_scope.

Lemma wide_division_witness : let E := pallas_f64 log2_down true in
  let three x y z := let! ab := (let! a := alloc_from_nat (Ok x) 64 2 in let! b := alloc_from_nat (Ok y) 64 2 in Ret (a, b)) in let! c := alloc_from_nat (Ok z) 64 2 in Ret (ab, c) in
  exists a m r s, run true (three (2 ^ 100) (2 ^ 127 - 1) (2 ^ 73)) st_init = (Ok (a, m, r), s) /\ good s /\
  (exists q r' s', run true (mult_mod a a m) s = (Ok (q, r'), s') /\ good s' /\ value q = Some (2 ^ 73) /\ value r' = Some (2 ^ 73) /\
     completed s (asg s) s' (fun rho => wires rho (limbs q) = [2 ^ 64 - 1; 2 ^ 9 - 1; 0; 0] /\ wires rho (limbs r') = [2 ^ 64 - 1; 2 ^ 63 + 2 ^ 9 - 1]) /\
     ~ completed s (asg s) s' (fun rho => wires rho (limbs q) = [0; 2 ^ 9; 0; 0] /\ wires rho (limbs r') = [1; 2 ^ 9])) /\
  (exists q s', run true (assert_product_mod a a m r) s = (Ok q, s') /\ good s' /\ value q = Some (2 ^ 73)) /\
  (exists q s', run true (assert_product_mod a a m a) s = (Ok q, s') /\ ~ good s') /\
  (exists r' s', run true (red_mod m a) s = (Ok r', s') /\ good s' /\ value r' = Some (2 ^ 100 - 1) /\
     completed s (asg s) s' (fun rho => wires rho (limbs r') = [2 ^ 64 - 1; 2 ^ 37 - 1])) /\
  (exists s', run true (divides r a) s = (Ok tt, s') /\ good s').
Proof.
  intros E three. pose proof (proj1 (usual_pallas log2_down true log2_down_faithful)) as HU. pose proof (wf_pallas_f64 log2_down true) as W. fold E in HU, W.
  destruct (wide_three HU (2 ^ 100) 2 (2 ^ 127 - 1) 2 (2 ^ 73) 2) as (a & m & r & A & Mm & R & s & R0 & G & NA & NM & NR & LA & LM & LR & VA & VM & VR); try lia.
  assert (HE : Nat.Even (length A + length A)) by (rewrite LA; exists 2%nat; reflexivity).
  exists a, m, r, s. split; [exact R0|]. split; [exact G|]. split; [|split; [|split; [|split]]].
  - destruct (honest_mult_mod HU a a m A A Mm s G NA NA NM ltac:(rewrite VM; lia) HE) as (q & r' & s' & H1 & H2 & H3 & H4).
    pose proof (fun Q R => wide_mult_mod HU true a a m A A Mm Q R s q r' s' (asg s) (good_good_for s G) (at_num64 _ _ _ NA) (at_num64 _ _ _ NA) (at_num64 _ _ _ NM) H1) as K.
    rewrite VA, VM in H3, H4, K. rewrite LA, LM in K.
    exists q, r', s'. split; [exact H1|]. split; [exact H2|]. split; [exact H3|]. split; [exact H4|]. split.
    + apply K. split; [reflexivity|]. split; [reflexivity|]. split; [repeat constructor; lia|]. split; [repeat constructor; lia|]. split; [reflexivity|].
      left. exists 2%nat. reflexivity.
    + intros N. apply K in N. destruct N as (_ & _ & _ & _ & N & _). vm_compute in N. discriminate.
  - destruct (honest_apm HU a a m r A A Mm R s G NA NA NM NR ltac:(rewrite VM; lia)) as (q & s' & H1 & H2 & H3).
    specialize (H3 HE). rewrite VA, VM in H2, H3. rewrite VR in H3. exists q, s'. split; [exact H1|]. split; [apply H3; reflexivity|exact H2].
  - destruct (honest_apm HU a a m a A A Mm A s G NA NA NM NA ltac:(rewrite VM; lia)) as (q & s' & H1 & H2 & H3).
    specialize (H3 HE). rewrite VA, VM in H3. exists q, s'. split; [exact H1|]. intros N. apply H3 in N. vm_compute in N. discriminate.
  - destruct (honest_red_mod HU m a Mm A s G NM NA ltac:(rewrite VA; lia)) as (r' & s' & H1 & H2 & H3).
    pose proof (fun R => wide_red_mod HU true m a Mm A R s r' s' (asg s) (good_good_for s G) (at_num64 _ _ _ NM) (at_num64 _ _ _ NA) H1) as K.
    rewrite VA, VM in H3, K. rewrite LA in K. exists r', s'. split; [exact H1|]. split; [exact H2|]. split; [exact H3|].
    apply K. split; [reflexivity|]. split; [repeat constructor; lia|]. exists (2 ^ 27 - 2). split; [lia|reflexivity].
  - destruct (honest_divides HU r a R A s G NR NA ltac:(rewrite VR; lia)) as (s' & H1 & H2).
    { rewrite VR, VA. exists (2 ^ 27). reflexivity. }
    exists s'. split; assumption.
Qed.
