(** The target update stage over the Pallas scalar field, in closed form (C95). *)
From Coq Require Import ZArith Bool String List Lia.
From Verif.Model Require Import Base Sha256 CS Bellpepper Util Poly Bignat Ints Median Difficulty HeaderStep Fields F64.
From Verif.Spec Require Import Spec SpecHeader SpecChain SpecF64 SpecTarget.
From Verif.Proofs Require Import Field Wp PrimeFields HeaderP HeaderW HeaderEx F64P TopF64 HeaderOut HashP Panics HeaderPanics HeaderExact TargetP.
Import ListNotations.
Local Open Scope string_scope.
Local Open Scope Z_scope.
Local Open Scope list_scope.

Section Panics.
Context {E : Env}.
Lemma update_closure_panics b target z s : (forall ds, calculated_closure (qb0 b) ds = Panic) -> fst (run true (stage_target_update b target z) s) = Panic.
Proof.
  intros HB. revert s. change (panics true (stage_target_update b target z)). unfold stage_target_update.
  apply panics_skip; [apply noerr_lift; exact (nerr_idx _ _)|]. intros z12. apply panics_skip; [apply noerr_lift; exact (nerr_idx _ _)|]. intros z14.
  apply panics_skip; [apply noerr_enforce|]. intros _. apply panics_skip; [apply noerr_lift; exact (nerr_idx _ _)|]. intros z13.
  apply panics_skip; [apply noerr_unwrap|]. intros tc. apply panics_skip; [apply noerr_lift; exact (unwrap_noerr _)|]. intros bt.
  apply panics_bind. rewrite HB. intros s. reflexivity.
Qed.
Lemma top_update_panics_low b target z s : overflow_checks = true -> 0 <= qb0 b < 3 -> fst (run true (stage_target_update b target z) s) = Panic.
Proof.
  intros HC HB. apply update_closure_panics. intros ds. unfold calculated_closure, u64_sub, checked. rewrite HC.
  destruct (Z.leb_spec 0 (qb0 b - 3)); [lia|]. reflexivity.
Qed.
End Panics.

Section Pallas.
Context (l : f64 -> f64) (ck : bool) (HL : faithful_log2 l).
Let E : Env := pallas_f64 l ck.
Local Existing Instance E.
Let W : Wf E := wf_pallas_f64 l ck.
Local Existing Instance W.
Section Stage.
Context (b : quirk_bytes) (target : allocated_num) (z : list allocated_num) (s : st) (z12 z13 z14 : allocated_num) (T T12 t c : Z).
Hypotheses (G : good s) (H12 : nth_error z 12 = Some z12) (H13 : nth_error z 13 = Some z13) (H14 : nth_error z 14 = Some z14)
  (AT : an_at s target T) (A12 : an_at s z12 T12) (A13 : an_at s z13 t) (A14 : an_at s z14 c) (Rt : 302400 < t < 4838400) (HB : 0 <= qb0 b < 256).
Let q := T12 * t / (2016 * 10 * 60).
Lemma top_target : 2 ^ 128 <= q -> (ck = true -> 3 <= qb0 b < 19) ->
  exists tc ct s', run true (stage_target_update b target z) s = (Ok (tc, ct, z13), s') /\
    (good s' <-> if c =? 0 then T = recomputed pallas_scalar_modulus (8 * (qb0 b - 3) mod 128) q else T = T12).
Proof.
  intros Hq HC. pose proof (top_recomputed (E := E) (qb0 b) q HB Hq HC) as HV.
  destruct (top_update_pallas l ck HL b target z s z12 z13 z14 T T12 t c _ G H12 H13 H14 AT A12 A13 A14 Rt HV) as (tc & ct & s' & K1 & _ & K2).
  exists tc, ct, s'. split; [exact K1|exact K2].
Qed.
Lemma top_target_panics : q < 2 ^ 128 \/ ck = true /\ (qb0 b < 3 \/ 19 <= qb0 b) -> fst (run true (stage_target_update b target z) s) = Panic.
Proof.
  intros [Hq|[HC [HL'|HH]]].
  - apply (top_update_small (E := E) (W := W) b target z s z12 z13 T12 t G H12 H13 A12 A13 Rt); [exact (pallas_f64_cap l ck)|apply pallas_f64_words; exact HL|exact Hq].
  - apply (top_update_panics_low (E := E)); [exact HC|lia].
  - apply (top_update_panics (E := E)); [exact HC|lia].
Qed.
Lemma top_retarget r s' : c = 0 -> has_bytes q (qb0 b) -> 0 < qb0 b -> T = three_bytes q (qb0 b) -> (ck = true \/ 25 <= qb0 b <= 32) ->
  run true (stage_target_update b target z) s = (Ok r, s') -> ~ good s'.
Proof.
  intros Hc Hq H0 HT HC HR. destruct (Z_lt_le_dec q (2 ^ 128)) as [Hs|Hs]; [rewrite (surjective_pairing (run _ _ _)), top_target_panics in HR by (now left); discriminate HR|].
  assert (HD : (ck = true /\ (qb0 b < 3 \/ 19 <= qb0 b)) \/ (ck = true -> 3 <= qb0 b < 19)) by (destruct ck; lia).
  destruct HD as [HD|HD]; [rewrite (surjective_pairing (run _ _ _)), top_target_panics in HR by (now right); discriminate HR|].
  destruct (top_target Hs HD) as (tc & ct & s2 & K1 & K2). rewrite K1 in HR. assert (s2 = s') by congruence. subst s2. rewrite K2, Hc. cbn [Z.eqb]. rewrite HT.
  intros HE. pose proof (top_recomputed (E := E) (qb0 b) q HB Hs HD) as HV. change (@modulus E) with pallas_scalar_modulus in HV. rewrite <- HE in HV.
  destruct HC as [HC|HC].
  - revert HV. apply (top_never_checked (E := E)); [exact HC|vm_compute; discriminate|lia|exact Hq].
  - revert HV. apply (top_never_large (E := E)); [vm_compute; discriminate|lia|exact Hq].
Qed.
End Stage.
End Pallas.

(** Target, previous target, span of two weeks, counter 0; the quotient is the previous target. *)
Definition re_vals (T Q : Z) : list Z := [T; Q; 1209600; 0].
Definition re_z (T Q : Z) : list allocated_num := repeat (vnum (re_vals T Q) 0) 12 ++ [vnum (re_vals T Q) 1; vnum (re_vals T Q) 2; vnum (re_vals T Q) 3].
Lemma re_case n T Q : let E := pallas_f64 log2_down true in 3 <= n < 19 -> 0 <= T < 2 ^ 250 -> 2 ^ 128 <= Q < 2 ^ 250 ->
  exists r s', run true (stage_target_update (mkQB n 0 0 0) (vnum (re_vals T Q) 0) (re_z T Q)) (vals_st (re_vals T Q)) = (Ok r, s') /\
    (good s' <-> T = recomputed pallas_scalar_modulus (8 * (n - 3) mod 128) Q).
Proof.
  intros E Hn HT HQ. pose proof (wf_pallas_f64 log2_down true) as W. fold E in W.
  assert (P : 2 ^ 250 < @modulus E) by reflexivity.
  assert (F : Forall canon (re_vals T Q)) by (unfold re_vals; repeat (constructor; [split; lia|]); constructor).
  assert (A : forall i, (i < 4)%nat -> an_at (vals_st (re_vals T Q)) (vnum (re_vals T Q) i) (nth i (re_vals T Q) 0)) by (intros i Hi; apply vnum_at; auto).
  assert (A0 := A 0%nat ltac:(lia)). assert (A1 := A 1%nat ltac:(lia)). assert (A2 := A 2%nat ltac:(lia)). assert (A3 := A 3%nat ltac:(lia)). cbn [nth re_vals] in A0, A1, A2, A3.
  assert (HD : Q * 1209600 / (2016 * 10 * 60) = Q) by (change (2016 * 10 * 60) with 1209600; apply Z.div_mul; lia).
  destruct (top_target log2_down true log2_down_faithful (mkQB n 0 0 0) (vnum (re_vals T Q) 0) (re_z T Q) (vals_st (re_vals T Q))
    (vnum (re_vals T Q) 1) (vnum (re_vals T Q) 2) (vnum (re_vals T Q) 3) T Q 1209600 0) as (tc & ct & s' & H1 & H2);
    [apply vals_good|reflexivity|reflexivity|reflexivity|exact A0|exact A1|exact A2|exact A3|lia|cbn; lia|rewrite HD; lia|cbn; lia|].
  exists (tc, ct, vnum (re_vals T Q) 2), s'. split; [exact H1|]. rewrite HD in H2. exact H2.
Qed.
Lemma C95_witness : let E := pallas_f64 log2_down true in let q := 2 ^ 140 + 1 in
  has_bytes q 18 /\ three_bytes q 18 = 2 ^ 140 /\ recomputed pallas_scalar_modulus 0 q = 2 ^ 140 + 2 ^ 64 /\
  (exists r s', run true (stage_target_update (mkQB 18 0 0 0) (vnum (re_vals (2 ^ 140) q) 0) (re_z (2 ^ 140) q)) (vals_st (re_vals (2 ^ 140) q)) = (Ok r, s') /\ ~ good s') /\
  (exists r s', run true (stage_target_update (mkQB 3 0 0 0) (vnum (re_vals q q) 0) (re_z q q)) (vals_st (re_vals q q)) = (Ok r, s') /\ ~ good s') /\
  (exists r s', run true (stage_target_update (mkQB 3 0 0 0) (vnum (re_vals (2 ^ 140 + 2 ^ 64) q) 0) (re_z (2 ^ 140 + 2 ^ 64) q)) (vals_st (re_vals (2 ^ 140 + 2 ^ 64) q)) = (Ok r, s') /\ good s').
Proof.
  cbv zeta. split; [vm_compute; split; [discriminate|reflexivity]|]. split; [reflexivity|]. split; [reflexivity|].
  split; [|split].
  - destruct (re_case 18 (2 ^ 140) (2 ^ 140 + 1)) as (r & s' & H1 & H2); [lia|lia|lia|]. exists r, s'. split; [exact H1|]. rewrite H2. vm_compute. discriminate.
  - destruct (re_case 3 (2 ^ 140 + 1) (2 ^ 140 + 1)) as (r & s' & H1 & H2); [lia|lia|lia|]. exists r, s'. split; [exact H1|]. rewrite H2. vm_compute. discriminate.
  - destruct (re_case 3 (2 ^ 140 + 2 ^ 64) (2 ^ 140 + 1)) as (r & s' & H1 & H2); [lia|lia|lia|]. exists r, s'. split; [exact H1|]. apply H2. reflexivity.
Qed.
