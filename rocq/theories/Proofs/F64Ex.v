(** Concrete cases for the floating point carry widths. *)
From Coq Require Import ZArith Bool List Lia.
From Verif.Model Require Import Base CS Bellpepper Util Poly Bignat Fields F64.
From Verif.Spec Require Import Spec SpecF64.
From Verif.Proofs Require Import PrimeFields F64P TopF64.
Import ListNotations.
Local Open Scope Z_scope.

Lemma f64_case : let E := pallas_f64 log2_down true in f64_carries E /\ Wf E /\ 2 ^ 67 <= modulus /\ CAPACITY = 254%nat /\
  carry_bits_exact (2 ^ 64 + 1) 64 = 2%nat /\ carry_bits_f64 (2 ^ 64 + 1) 64 = 1%nat /\
  carry_bits_f64 (2 ^ 64 - 1) 64 = 1%nat /\ carry_bits_f64 (2 ^ 64) 64 = 1%nat /\
  carry_bits_f64 (3 * (2 ^ 64 - 1) * (2 ^ 64 - 1)) 64 = 67%nat.
Proof.
  intros E. pose proof (f64_carries_pallas log2_down true log2_down_faithful) as HF. fold E in HF.
  split; [exact HF|]. split; [apply wf_pallas_f64|]. split; [discriminate|]. split; [apply cap_pallas_f64|].
  split; [reflexivity|]. split; [apply (short_64 HF)|].
  assert (X : forall M w, 0 <= M < 2 ^ 1020 -> Z.of_nat w < 2 ^ 53 ->
    M = 2 ^ Z.log2 M \/ 2 ^ Z.log2 M <= (M - 2 ^ Z.log2 M) * 2 ^ 43 -> carry_bits_f64 M w = carry_bits_exact M w).
  { intros. now apply (top_carry_exact log2_down log2_down_faithful). }
  split; [|split]; rewrite X; try reflexivity; try lia; try (split; [discriminate|reflexivity]); try (now left); right; vm_compute; discriminate.
Qed.

(** Only one carry width is used by the comparison. *)
Definition env1 : Env := mkEnv pallas_scalar_modulus 32 true (fun _ _ => 1%nat).
Lemma ewc_env1 a b : max_word (bparams a) = 2 ^ 64 + 1 -> max_word (bparams b) = 2 ^ 64 - 1 ->
  limb_width (bparams a) = 64%nat -> limb_width (bparams b) = 64%nat ->
  @equal_when_carried (pallas_f64 log2_down true) a b = @equal_when_carried env1 a b.
Proof.
  intros Ha Hb Hw Hwb. assert (HA : width_agreement a b = Ok 64%nat) by (unfold width_agreement; rewrite Hw, Hwb; reflexivity).
  unfold equal_when_carried. rewrite HA, Ha, Hb. cbn [lift bind].
  change (Z.max (2 ^ 64 + 1) (2 ^ 64 - 1)) with (2 ^ 64 + 1).
  rewrite (short_64 (E := pallas_f64 log2_down true) (f64_carries_pallas log2_down true log2_down_faithful)). reflexivity.
Qed.

Definition shift_prefix {E : Env} : prog (bignat * bignat * bignat) :=
  let! a := alloc_from_nat (Ok (2 ^ 64 - 1)) 64 2 in
  let! b := alloc_from_nat (Ok (2 ^ 64 + 1)) 64 2 in
  let! c := lift (shift a 2) in Ret (a, b, c).

Lemma f64_run : let E := pallas_f64 log2_down true in
  let '(r, s) := run true (
     let! a := alloc_from_nat (Ok (2 ^ 64 - 1)) 64 2 in
     let! b := alloc_from_nat (Ok (2 ^ 64 + 1)) 64 2 in
     let! c := lift (shift a 2) in Ret (a, b, c)) st_init in
  match r with
  | Ok (a, b, c) =>
      let '(r, s) := run true (equal_when_carried c b) s in
      r = Ok tt /\ satb (asg s) s = false /\ int_of (asg s) a + 2 = int_of (asg s) b
  | _ => False
  end.
Proof.
  intros E.
  assert (K : let '(r, s) := run true (@shift_prefix E) st_init in
    match r with
    | Ok (a, b, c) =>
      (max_word (bparams c) = 2 ^ 64 + 1 /\ max_word (bparams b) = 2 ^ 64 - 1 /\ limb_width (bparams c) = 64%nat /\ limb_width (bparams b) = 64%nat) /\
      let '(r, s) := run true (@equal_when_carried env1 c b) s in
      r = Ok tt /\ @satb env1 (asg s) s = false /\ @int_of env1 (asg s) a + 2 = @int_of env1 (asg s) b
    | _ => False
    end).
  { vm_compute. auto 10. }
  change (let! a := alloc_from_nat (Ok (2 ^ 64 - 1)) 64 2 in
     let! b := alloc_from_nat (Ok (2 ^ 64 + 1)) 64 2 in
     let! c := lift (shift a 2) in Ret (a, b, c)) with (@shift_prefix E).
  destruct (run true (@shift_prefix E) st_init) as [[[[a b] c]| |] s]; auto.
  destruct K as [(K1 & K2 & K3 & K4) K]. unfold E. rewrite (ewc_env1 c b K1 K2 K3 K4). exact K.
Qed.
