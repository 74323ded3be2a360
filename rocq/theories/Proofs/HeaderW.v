(** Work and target-update stages of header_step.rs, and what the constraints of the first two stages leave open. *)
From Coq Require Import ZArith Bool String List Lia ZifyBool ZifyNat Setoid Morphisms.
From Verif.Model Require Import Base Sha256 CS Bellpepper Util Poly Bignat Ints Median Difficulty HeaderStep.
From Verif.Spec Require Import Spec SpecHeader.
From Verif.Proofs Require Import Field Wp Lc Arith Convert Limbs Owp Pwp BignatEq BignatAlloc Mult MultC MultC MedianP MedianV Shp TopBignat1 TopMedian DifficultyP TopDifficulty HashP HeaderInts HeaderBytes Panics HeaderPanics HeaderP TopGadget.
Import ListNotations.
Local Open Scope string_scope.
Local Open Scope Z_scope.
Local Open Scope list_scope.

Section HeaderW.
Context {E : Env} {W : Wf E}.

(** ** Work *)
Lemma max_target_ok : max_target_closure = Ok (fmk max_target).
Proof.
  unfold max_target_closure, u128_shl. rewrite shl_in by lia. cbn [rbind]. f_equal. unfold fmul, from_u128.
  apply eqp_eq. rewrite !eqp_fmk. apply eqp_ring. reflexivity.
Qed.
Lemma digit0 b n : 0 < n -> idx (digits b n) 0 = Ok (n mod b).
Proof. intros H. unfold digits. cbn [digits_fuel]. now replace (n <=? 0) with false by lia. Qed.
Lemma work_ok T : 0 < T <= max_target -> max_target < modulus -> work_closure (Some (fmk max_target)) (Some T) = Ok (fmk (max_target / T mod 2 ^ 64)).
Proof.
  intros H HP. unfold work_closure. cbn [unwrap rbind]. assert (0 < max_target) by (unfold max_target; lia).
  rewrite (fmk_id max_target) by (split; lia). rewrite !f_to_nat_canon by (split; lia).
  unfold bigint_div. replace (T =? 0) with false by lia. cbn [rbind]. rewrite Z.quot_div_nonneg by lia.
  rewrite digit0; [reflexivity|]. apply Z.div_str_pos. lia.
Qed.
Lemma work_panics T : canon T -> T = 0 \/ max_target < T -> max_target < modulus -> work_closure (Some (fmk max_target)) (Some T) = Panic.
Proof.
  intros C H HP. unfold work_closure. cbn [unwrap rbind]. assert (0 < max_target) by (unfold max_target; lia). destruct C as [C1 C2].
  rewrite (fmk_id max_target) by (split; lia). rewrite !f_to_nat_canon by (split; lia).
  unfold bigint_div. destruct (Z.eqb_spec T 0) as [|N]; [reflexivity|]. cbn [rbind]. rewrite Z.quot_div_nonneg by lia.
  rewrite Z.div_small by lia. reflexivity.
Qed.

Theorem top_work_panics target T s : good s -> an_at s target T -> max_target < modulus -> T = 0 \/ max_target < T ->
  fst (run true (stage_work target) s) = Panic.
Proof.
  intros G HT HP HC. apply (owp_result _ s (fun r => r = Panic) G). intros rho Hag one.
  unfold stage_work. eapply owp_bind_ok; [apply an_u_ok; [apply max_target_ok|apply fmk_canon]|]. intros mt [Hm _]. rewrite Hm, (proj1 HT).
  apply an_u_panic. apply work_panics; auto. apply HT.
Qed.

Definition work_prefix (target : allocated_num) : prog (allocated_num * allocated_num) :=
  let! max_target := an_u "maximum target" max_target_closure in
  let! block_work := an_u "work or difficulty" (work_closure (an_val max_target) (an_val target)) in
  Ret (max_target, block_work).
Definition work_con (target : allocated_num) (p : allocated_num * allocated_num) : prog allocated_num :=
  let! _ := enforce (Nm "max_target = target * block_work") (lc_var (an_var target)) (lc_var (an_var (snd p))) (lc_var (an_var (fst p))) in
  Ret (snd p).
Lemma work_split wit target s : run wit (stage_work target) s = run wit (bind (work_prefix target) (work_con target)) s.
Proof. unfold work_prefix. rewrite !run_assoc. apply run_ext. intros a s1. rewrite !run_assoc. reflexivity. Qed.

Theorem top_work_iff target T s : good s -> an_at s target T -> max_target < modulus -> 0 < T <= max_target ->
  exists w s', run true (stage_work target) s = (Ok w, s') /\ an_at s' w (max_target / T mod 2 ^ 64) /\
    (sat (asg s') s' <-> (T * (max_target / T mod 2 ^ 64)) mod modulus = max_target).
Proof.
  intros G HT HP HR. assert (HM : 0 < max_target) by (unfold max_target; lia). set (w0 := max_target / T mod 2 ^ 64).
  assert (Rw : 0 <= w0 < modulus).
  { unfold w0. assert (0 <= max_target / T <= max_target) by (split; [apply Z.div_pos; lia|apply Z.div_le_upper_bound; nia]).
    split; [apply Z.mod_pos_bound; lia|]. eapply Z.le_lt_trans; [apply Z.mod_le; lia|]. lia. }
  destruct (hwp_run (work_prefix target) s (fun rho p => is_an rho (fst p) max_target /\ is_an rho (snd p) w0 /\ is_an rho target T) G) as ([mt bw] & s1 & Hr & Hg & HA & HQ).
  { intros rho Hag one. pose proof (an_at_is _ _ _ _ HT Hag one) as It. unfold work_prefix. hstep. eapply hwp_mono; [apply an_u_ok; [apply max_target_ok|apply fmk_canon]|].
    intros mt Hm. rewrite (proj1 Hm), (proj1 HT). hstep. eapply hwp_mono; [apply an_u_ok; [apply work_ok; auto|apply fmk_canon]|]. intros bw Hb.
    hstep. cbn [fst snd]. rewrite fmk_id in Hm by (split; lia). fold w0 in Hb. rewrite fmk_id in Hb by (split; lia). split; [exact Hm|]. split; assumption. }
  exists bw. eexists. rewrite work_split, (run_bind_ok _ _ _ _ _ _ Hr). cbn [fst snd]. split; [reflexivity|].
  cbn [fst snd] in HQ. split.
  - apply (is_an_at s1); [intros rho Ha; exact Ha|]. intros rho Ha. apply (HQ rho Ha).
  - destruct (HQ _ (agree_asg s1)) as ((_ & _ & K1) & (_ & _ & K2) & (_ & _ & K3)).
    match goal with |- sat ?r ?s2 <-> _ => change (sat (asg s1) (push_con (Nm "max_target = target * block_work") (R1 (lc_var (an_var target)) (lc_var (an_var bw)) (lc_var (an_var mt))) s1) <-> (T * w0) mod modulus = max_target) end.
    rewrite sat_push_con, csat_R1. lcs. split.
    + intros [HC _]. rewrite K1, K2, K3 in HC. apply eqp_eq in HC. unfold fmk in HC. rewrite HC. apply Z.mod_small. lia.
    + intros HC. split; [|exact (Hg _ (agree_asg s1))]. rewrite K1, K2, K3. apply eqp_eq. unfold fmk. rewrite HC. symmetry. apply Z.mod_small. lia.
Qed.
Theorem top_work_exact target T s : good s -> an_at s target T -> max_target < modulus -> 0 < T <= max_target -> max_target / T < 2 ^ 64 ->
  exists w s', run true (stage_work target) s = (Ok w, s') /\ an_at s' w (max_target / T) /\ (sat (asg s') s' <-> (T | max_target)).
Proof.
  intros G HT HP HR HQ. destruct (top_work_iff target T s G HT HP HR) as (w & s' & Hr & Hw & HS). exists w, s'. split; [exact Hr|].
  assert (HM : 0 < max_target) by (unfold max_target; lia). assert (P : 0 <= max_target / T) by (apply Z.div_pos; lia).
  rewrite Z.mod_small in Hw, HS by lia. split; [exact Hw|]. rewrite HS.
  pose proof (Z.mul_div_le max_target T ltac:(lia)) as HL. rewrite Z.mod_small by nia. split.
  - intros H. exists (max_target / T). lia.
  - intros H. symmetry. apply Z_div_exact_full_2; [lia|]. apply Z.mod_divide; [lia|exact H].
Qed.
(** The maximum target is a witness: any work is accepted for any target. *)
Theorem top_work_free wit target w s a s' rho0 T : good_for rho0 s -> carries_for rho0 s (lc_var (an_var target)) T ->
  run wit (stage_work target) s = (Ok a, s') -> canon w ->
  exists rho, same_on s rho rho0 /\ sat rho s' /\ feval rho (lc_var (an_var a)) = w.
Proof.
  intros G HT Hr Cw. destruct (pwp_run wit (stage_work target) s rho0 ([T * w] ++ [w] ++ []) (fun rho a => eqp (rho (an_var a)) w) a s' G) as (rho & H1 & H2 & H3); auto.
  { intros rho Hs one. specialize (HT rho Hs one). unfold stage_work, an_u.
    assert (Hmd : md_of wit <> Honest) by (destruct wit; discriminate).
    eapply pwp_step; [apply an_alloc_awp with (Q := fun a => eqp (rho (an_var a)) (T * w)); [contradiction|]|].
    { intros x v Hx _. cbn [an_var]. rewrite Hx. reflexivity. }
    intros mt Hm. eapply pwp_step; [apply an_alloc_awp with (Q := fun a => eqp (rho (an_var a)) w); [contradiction|]|].
    { intros x v Hx _. cbn [an_var]. rewrite Hx. reflexivity. }
    intros bw Hb. cbn [enforce bind pwp]. split; [|split; [reflexivity|exact Hb]]. apply csat_R1. lcs. rewrite Hm, Hb.
    unfold feval in HT. rewrite lc_eval_var in HT. rewrite <- HT. rewrite eqp_fmk. reflexivity. }
  exists rho. split; [exact H1|]. split; [apply H2, same_on_refl|]. apply feval_eqp; auto. rewrite lc_eval_var. apply H3, same_on_refl.
Qed.

(** ** Target update *)
Theorem top_update_sound wit b target z s tc ct st0 s' rho z12 z14 :
  run wit (stage_target_update b target z) s = (Ok (tc, ct, st0), s') -> sat rho s' ->
  nth_error z 12 = Some z12 -> nth_error z 14 = Some z14 ->
  nth_error z 13 = Some st0 /\
  (feval rho (lc_var (an_var z14)) <> 0 -> feval rho (lc_var (an_var target)) = feval rho (lc_var (an_var z12))) /\
  (feval rho (lc_var (an_var z14)) = 0 -> feval rho (lc_var (an_var target)) = feval rho (lc_var (an_var ct))).
Proof.
  intros Hr Hs H12 H14. pose proof (proj1 Hs) as one.
  assert (HW : swp Any rho (stage_target_update b target z) (fun p => nth_error z 13 = Some (snd p) /\
    (~ eqp (rho (an_var z14)) 0 -> eqp (rho (an_var target)) (rho (an_var z12))) /\
    (eqp (rho (an_var z14)) 0 -> eqp (rho (an_var target)) (rho (an_var (snd (fst p))))))).
  { unfold stage_target_update. unfold idx at 1 2. rewrite H12, H14. cbn [unwrap lift bind].
    do 2 sstep. lcs. intros C1. do 2 sstep. intros st1 H13. unfold idx in H13. destruct (nth_error z 13) as [st2|] eqn:E13; [|discriminate]. injection H13 as ->.
    apply swp_skip. intros tc1. do 2 sstep. intros bt Hbt. apply swp_skip. intros ct1. apply swp_skip. intros di. apply swp_skip. intros t.
    do 2 sstep. lcs. intros C2. do 2 sstep. lcs. intros C3. do 2 sstep. lcs. intros C4. sstep. cbn [fst snd].
    split; [reflexivity|]. rewrite one in *. split.
    - intros N. apply eqp_0_mul in C1. destruct C1 as [C1|C1]; [|contradiction]. now apply eqp_sub_0.
    - intros Z0. assert (T0 : eqp (rho (an_var t)) 0) by (rewrite <- C2, Z0; ering). rewrite T0 in C4.
      apply eqp_0_mul in C4. destruct C4 as [C4|C4]; [now apply eqp_sub_0|]. exfalso. apply eqp_1_0. assert (M : eqp 1 (-1 * (0 - 1))) by ering. rewrite M, C4. ering. }
  apply (swp_run_any _ _ _ _ _ _ _ Hr Hs) in HW. cbn [fst snd] in HW. destruct HW as (K1 & K2 & K3).
  assert (F : forall x y : allocated_num, feval rho (lc_var (an_var x)) = feval rho (lc_var (an_var y)) <-> eqp (rho (an_var x)) (rho (an_var y))).
  { intros x y. unfold feval. rewrite !lc_eval_var. symmetry. apply eqp_eq. }
  assert (F0 : feval rho (lc_var (an_var z14)) = 0 <-> eqp (rho (an_var z14)) 0).
  { rewrite feval_eqp by apply canon_0. now rewrite lc_eval_var. }
  split; [exact K1|]. rewrite !F, F0. split; assumption.
Qed.

(** The recomputed target is a witness: apart from the quotient computation, only the first constraint is binding. *)
Definition delta_of (c : Z) : Z := if c =? 0 then 1 else match finvert c with Some i => i | None => 0 end.
Theorem top_update_free wit b target z s r s' rho0 z12 z13 z14 T T12 t c :
  good_for rho0 s -> run wit (stage_target_update b target z) s = (Ok r, s') ->
  nth_error z 12 = Some z12 -> nth_error z 13 = Some z13 -> nth_error z 14 = Some z14 ->
  carries_for rho0 s (lc_var (an_var target)) T -> carries_for rho0 s (lc_var (an_var z12)) T12 ->
  carries_for rho0 s (lc_var (an_var z13)) t -> carries_for rho0 s (lc_var (an_var z14)) c ->
  (c = 0 \/ T = T12) -> t < 2 ^ 64 ->
  (194 <= CAPACITY <= 255)%nat -> exact_carries ((2 ^ 64 - 1) * 2 ^ 128) 64 ->
  exists rho, same_on s rho rho0 /\ sat rho s'.
Proof.
  intros G Hr H12 H13 H14 CT C12 C13 C14 HC Rt HCap HX. rewrite <- calc_word_eq in HX.
  assert (HN : (194 < NUM_BITS)%nat) by (unfold CAPACITY in HCap; lia).
  assert (HPU : modulus < 2 ^ 256).
  { pose proof modulus_bits as [_ B]. eapply Z.lt_le_trans; [exact B|]. apply Z.pow_le_mono_r; unfold CAPACITY in HCap; lia. }
  pose proof (proj1 (G rho0 (same_on_refl _ _))) as one0.
  assert (CC : forall x v, carries_for rho0 s (lc_var x) v -> canon v /\ forall rho, same_on s rho rho0 -> rho ONE = 1 -> eqp (rho x) v).
  { intros x v Hx. split; [rewrite <- (Hx rho0 (same_on_refl _ _) one0); apply fmk_canon|]. intros rho Hs one. specialize (Hx rho Hs one).
    unfold feval in Hx. rewrite lc_eval_var in Hx. rewrite <- Hx. symmetry. apply eqp_fmk. }
  destruct (CC _ _ CT) as [KT ET], (CC _ _ C12) as [K12 E12], (CC _ _ C13) as [K13 E13], (CC _ _ C14) as [K14 E14].
  set (d := delta_of c).
  assert (Hd : c = 0 \/ eqp (c * d) 1).
  { unfold d, delta_of. destruct (Z.eqb_spec c 0) as [Z0|N]; [now left|right]. destruct (finvert_spec c) as (i & H1 & H2 & H3).
    { intros H. apply N. apply canon_eq0; auto. }
    rewrite H1. exact H3. }
  assert (Hmd : md_of wit <> Honest) by (destruct wit; discriminate).
  destruct (pwp_run wit (stage_target_update b target z) s rho0
    (calc_aux T12 t (2 ^ 64) (T12 * t / 2 ^ 64) (T12 * t mod 2 ^ 64) ++ [T] ++ [d] ++ [c * d] ++ []) (fun _ _ => True) r s' G) as (rho & H1 & H2 & _); auto.
  2:{ exists rho. split; [exact H1|]. apply H2, same_on_refl. }
  intros rho Hs one. specialize (ET rho Hs one). specialize (E12 rho Hs one). specialize (E13 rho Hs one). specialize (E14 rho Hs one).
  unfold stage_target_update, an_u. unfold idx. rewrite H12, H13, H14. cbn [unwrap lift bind].
  cbn [enforce bind pwp]. split.
  { apply csat_R1. lcs. rewrite ET, E12, E14. destruct HC as [-> | ->]; ering. }
  destruct K12, K13. 
  apply pwp_bind. apply pwp_unwrap, pwp_ns. eapply pwp_mono.
  { assert (HQ : 0 <= T12 * t / 2 ^ 64 < 2 ^ 256).
    { split; [apply Z.div_pos; lia|]. apply Z.div_lt_upper_bound; [lia|]. nia. }
    apply (calc_pwp rho one (md_of wit) z12 z13 T12 t (2 ^ 64) (T12 * t / 2 ^ 64) (T12 * t mod 2 ^ 64)); auto; try lia. }
  intros tc _. apply pwp_host. intros bt _.
  eapply pwp_step; [apply an_alloc_awp with (Q := fun a => eqp (rho (an_var a)) T); [contradiction|]|].
  { intros x v Hx _. cbn [an_var]. rewrite Hx. reflexivity. }
  intros ct Hct. apply pwp_bind, pwp_ns, awp_pwp. apply an_alloc_awp; [contradiction|]. intros di v1 Hdi _.
  apply pwp_bind, pwp_ns, awp_pwp. apply an_alloc_awp; [contradiction|]. intros t1 v2 Ht1 _. cbn [an_var].
  cbn [enforce bind pwp]. split; [apply csat_R1; lcs; rewrite E14, Hdi, Ht1; ering|].
  split; [apply csat_R1; lcs; rewrite E14, Ht1, one; destruct Hd as [->|Hd]; [ering|rewrite Hd; ering]|].
  split; [apply csat_R1; lcs; rewrite ET, Hct; ering|]. split; [reflexivity|exact I].
Qed.

(** With overflow checks the recomputation of the target panics for every exponent byte from 19 on. *)
Lemma closure_checked b0 ds : overflow_checks = true -> 19 <= b0 < 256 -> calculated_closure b0 ds = Panic.
Proof.
  intros HO HB. unfold calculated_closure, u64_sub, u64_mul. rewrite checked_in by lia. cbn [rbind]. rewrite checked_in by lia. cbn [rbind].
  destruct (idx ds 0) as [t0|e|] eqn:H0; [| |reflexivity]; [|exfalso; exact (nerr_idx ds 0 e H0)]. cbn [rbind].
  destruct (idx ds 1) as [t1|e|] eqn:H1; [| |reflexivity]; [|exfalso; exact (nerr_idx ds 1 e H1)]. cbn [rbind].
  unfold u128_shl. rewrite shl_in by lia. cbn [rbind]. unfold u128_shr. rewrite shr_out by lia. reflexivity.
Qed.
Theorem top_update_panics b target z s : overflow_checks = true -> 19 <= qb0 b < 256 -> fst (run true (stage_target_update b target z) s) = Panic.
Proof.
  intros HO HB. revert s. change (panics true (stage_target_update b target z)). unfold stage_target_update.
  apply panics_skip; [apply noerr_lift; exact (nerr_idx _ _)|]. intros z12. apply panics_skip; [apply noerr_lift; exact (nerr_idx _ _)|]. intros z14.
  apply panics_skip; [apply noerr_enforce|]. intros _. apply panics_skip; [apply noerr_lift; exact (nerr_idx _ _)|]. intros z13.
  apply panics_skip; [apply noerr_unwrap|]. intros tc. apply panics_skip; [apply noerr_lift; exact (unwrap_noerr _)|]. intros bt.
  apply panics_bind. rewrite closure_checked by auto. intros s. reflexivity.
Qed.
(** Below 2^128 the third 64-bit digit does not exist. *)
Lemma closure_small b0 n : 0 <= n < 2 ^ 128 -> calculated_closure b0 (digits (2 ^ 64) n) = Panic.
Proof.
  intros Hn. unfold calculated_closure.
  destruct (u64_sub b0 3) as [e|x|] eqn:HE; [|exfalso; exact (nerr_checked _ _ _ HE)|reflexivity]. cbn [rbind].
  destruct (u64_mul 8 e) as [k|x|] eqn:HK; [|exfalso; exact (nerr_checked _ _ _ HK)|reflexivity]. cbn [rbind].
  destruct (idx _ 0) as [t0|x|] eqn:H0; [|exfalso; exact (nerr_idx _ _ _ H0)|reflexivity]. cbn [rbind].
  destruct (idx _ 1) as [t1|x|] eqn:H1; [|exfalso; exact (nerr_idx _ _ _ H1)|reflexivity]. cbn [rbind].
  destruct (u128_shl _ 64) as [y|x|] eqn:HY; [|exfalso; exact (nerr_shl _ _ _ _ HY)|reflexivity]. cbn [rbind].
  destruct (u128_shr y k) as [y2|x|] eqn:HY2; [|exfalso; exact (nerr_shr _ _ _ _ HY2)|reflexivity]. cbn [rbind].
  assert (HD : idx (digits (2 ^ 64) n) 2 = Panic).
  { assert (D : forall f m, 0 <= m < 2 ^ 128 -> nth_error (digits_fuel f (2 ^ 64) m) 2 = None).
    { intros f m Hm. destruct f as [|f]; [reflexivity|]. cbn [digits_fuel]. destruct (m <=? 0); [reflexivity|]. cbn [nth_error].
      destruct f as [|f]; [reflexivity|]. cbn [digits_fuel]. destruct (m / 2 ^ 64 <=? 0); [reflexivity|]. cbn [nth_error].
      destruct f as [|f]; [reflexivity|]. cbn [digits_fuel]. rewrite Z.div_div by lia. rewrite (Z.div_small m) by lia. reflexivity. }
    unfold idx, digits. now rewrite D. }
  rewrite HD. reflexivity.
Qed.

(** Honest run of the stage. *)
Definition dval (c : Z) : res Z := if c =? 0 then Ok fone else unwrap (finvert c).
Lemma dval_ok c : canon c -> dval c = Ok (delta_of c) /\ canon (delta_of c) /\ (c = 0 \/ eqp (c * delta_of c) 1).
Proof.
  intros K. unfold dval, delta_of. destruct (Z.eqb_spec c 0) as [Z0|N].
  - split; [f_equal; apply fmk_id, canon_1|]. split; [apply canon_1|now left].
  - destruct (finvert_spec c) as (i & H1 & H2 & H3). { intros H. apply N. apply canon_eq0; auto. }
    rewrite H1. split; [reflexivity|]. split; [exact H2|now right].
Qed.
Lemma run_outcome {A} (m : prog A) s (P : assignment -> res A -> Prop) : good s -> (forall rho, agree s rho -> rho ONE = 1 -> owp rho m (P rho)) ->
  exists r s', run true m s = (r, s') /\ forall rho, agree s' rho -> P rho r.
Proof.
  intros G H. destruct (run true m s) as [r s'] eqn:Hr. exists r, s'. split; [reflexivity|]. intros rho Ha.
  eapply (owp_run m s P); [|exact Hr|exact Ha]. intros rho0 Ha0. apply H; [exact Ha0|]. apply (G rho0 Ha0).
Qed.
Theorem top_update_iff b target z s z12 z13 z14 T T12 t c v :
  good s -> nth_error z 12 = Some z12 -> nth_error z 13 = Some z13 -> nth_error z 14 = Some z14 ->
  an_at s target T -> an_at s z12 T12 -> an_at s z13 t -> an_at s z14 c ->
  302400 < t < 4838400 -> T12 * t / (2016 * 10 * 60) < 2 ^ 256 ->
  (194 <= CAPACITY <= 255)%nat -> exact_carries ((2 ^ 64 - 1) * 2 ^ 128) 64 ->
  calculated_closure (qb0 b) (digits (2 ^ 64) (T12 * t / (2016 * 10 * 60))) = Ok v ->
  exists tc ct s', run true (stage_target_update b target z) s = (Ok (tc, ct, z13), s') /\ an_at s' ct v /\
    (sat (asg s') s' <-> if c =? 0 then T = v else T = T12).
Proof.
  intros G H12 H13 H14 AT A12 A13 A14 Rt RT HCap HX HV.
  assert (HXw := HX). rewrite <- calc_word_eq in HXw.
  assert (Cv : canon v).
  { unfold calculated_closure in HV. repeat match type of HV with rbind ?r _ = Ok _ => destruct r; cbn [rbind] in HV; try discriminate HV end.
    match type of HV with Ok ?a = _ => assert (e : a = v) by congruence end. subst v. apply fmk_canon. }
  destruct (dval_ok c (proj1 (proj2 A14))) as (D1 & D2 & D3).
  assert (VQ : forall rho bt, is_bn rho Honest bt (digits64 5 (T12 * t / two_weeks)) /\ in_word bt (digits64 5 (T12 * t / two_weeks)) /\
    bparams bt = params_new 64 5 /\ value_of (2 ^ Z.of_nat 64) (digits64 5 (T12 * t / two_weeks)) = T12 * t / two_weeks ->
    value bt = Some (T12 * t / (2016 * 10 * 60))).
  { intros rho bt (K1 & K2 & K3 & K4). rewrite (is_bn_value _ _ _ _ K1 eq_refl), K3. cbn [params_new limb_width]. rewrite K4. reflexivity. }
  destruct (run_outcome (stage_target_update b target z) s (fun rho r => exists tc ct, r = Ok (tc, ct, z13) /\ is_an rho ct v) G) as (r & s' & Hr & HQ).
  { intros rho Hag one. pose proof (an_at_is _ _ _ _ A14 Hag one) as I14.
    unfold stage_target_update. unfold idx. rewrite H12, H13, H14. cbn [unwrap lift bind enforce owp].
    eapply owp_step; [apply (calc_hwp rho one z12 z13 T12 t HCap HXw (an_at_is _ _ _ _ A12 Hag one) (an_at_is _ _ _ _ A13 Hag one) Rt RT)|].
    cbv beta zeta. intros tc Htc. rewrite (VQ _ _ Htc). cbn [unwrap lift bind]. eapply owp_bind_ok; [apply an_u_ok; [exact HV|exact Cv]|]. intros ct Hct.
    rewrite (proj1 I14). cbn [unwrap rbind]. fold (dval c).
    eapply owp_bind_ok; [apply hwp_ns, (an_alloc_hwp rho _ _ (fun a => is_an rho a (delta_of c)) D1); intros x Hx; apply is_an_mk; auto|]. intros di Hdi.
    rewrite (proj1 Hdi). cbn [unwrap rbind].
    eapply owp_bind_ok; [apply hwp_ns, (an_alloc_hwp rho _ _ (fun _ => True) eq_refl); auto|]. intros t1 _.
    cbn [enforce bind owp]. exists tc, ct. split; [reflexivity|exact Hct]. }
  destruct (HQ _ (agree_asg s')) as (tc & ct & -> & Hct). exists tc, ct, s'. split; [exact Hr|].
  assert (Act : an_at s' ct v).
  { apply (is_an_at s'); auto. intros rho Ha. destruct (HQ rho Ha) as (tc1 & ct1 & E1 & I1). assert (ct1 = ct) by congruence. now subst ct1. }
  split; [exact Act|].
  assert (AV : forall x a, an_at s x a -> sat (asg s') s' -> feval (asg s') (lc_var (an_var x)) = a).
  { intros x a (_ & _ & HC) Hs. apply HC; [|apply Hs]. eapply run_agree; [exact Hr|reflexivity|apply agree_asg]. }
  split.
  - intros Hs. destruct (top_update_sound _ _ _ _ _ _ _ _ _ _ _ _ Hr Hs H12 H14) as (_ & S1 & S2).
    rewrite (AV _ _ AT Hs), (AV _ _ A12 Hs), (AV _ _ A14 Hs) in *. assert (VC : feval (asg s') (lc_var (an_var ct)) = v) by (destruct Act as (_ & _ & HC); apply HC; [apply agree_asg|apply Hs]).
    rewrite VC in S2. destruct (Z.eqb_spec c 0); auto.
  - intros HC. destruct (hwp_run (stage_target_update b target z) s (fun _ _ => True) G) as (r2 & s2 & Hr2 & Hg & _ & _).
    2:{ assert (s2 = s') by congruence. subst s2. apply Hg, agree_asg. }
    intros rho Hag one. pose proof (an_at_is _ _ _ _ A14 Hag one) as I14. pose proof (an_at_is _ _ _ _ A12 Hag one) as I12. pose proof (an_at_is _ _ _ _ AT Hag one) as IT.
    assert (E14 := proj2 (proj2 I14)). assert (E12 := proj2 (proj2 I12)). assert (ET := proj2 (proj2 IT)).
    unfold stage_target_update. unfold idx. rewrite H12, H13, H14. cbn [unwrap lift bind enforce hwp].
    split. { apply csat_R1. lcs. rewrite ET, E12, E14. destruct (Z.eqb_spec c 0) as [->|_]; [ering|rewrite HC; ering]. }
    do 2 hstep. hstep. eapply hwp_mono; [apply (calc_hwp rho one z12 z13 T12 t HCap HXw I12 (an_at_is _ _ _ _ A13 Hag one) Rt RT)|].
    cbv beta zeta. intros tc2 Htc. rewrite (VQ _ _ Htc). cbn [unwrap lift bind]. apply hwp_bind. eapply hwp_mono; [apply an_u_ok; [exact HV|exact Cv]|]. intros ct2 Hct2.
    rewrite (proj1 I14). cbn [unwrap rbind]. fold (dval c). apply hwp_bind, hwp_ns.
    apply (an_alloc_hwp rho _ _ _ D1). intros x Hx. cbn [an_val unwrap rbind].
    apply hwp_bind, hwp_ns. apply (an_alloc_hwp rho _ _ _ eq_refl). intros y Hy. cbn [an_var enforce bind hwp].
    assert (EY : eqp (rho y) (c * delta_of c)) by (rewrite Hy; unfold fmul; apply eqp_fmk).
    split; [apply csat_R1; lcs; rewrite E14, Hx, EY; ering|].
    split; [apply csat_R1; lcs; rewrite E14, EY, one; destruct D3 as [->|D3]; [ering|rewrite D3; ering]|].
    split; [|exact I]. apply csat_R1. lcs. rewrite ET, (proj2 (proj2 Hct2)), EY, one. destruct (Z.eqb_spec c 0) as [Z0|N]; [rewrite HC; ering|].
    destruct D3 as [D3|D3]; [contradiction|rewrite D3; ering].
Qed.
(** A recomputed target below 2^128 panics in both profiles. *)
Theorem top_update_small b target z s z12 z13 T12 t :
  good s -> nth_error z 12 = Some z12 -> nth_error z 13 = Some z13 -> an_at s z12 T12 -> an_at s z13 t ->
  302400 < t < 4838400 ->
  (194 <= CAPACITY <= 255)%nat -> exact_carries ((2 ^ 64 - 1) * 2 ^ 128) 64 ->
  T12 * t / (2016 * 10 * 60) < 2 ^ 128 -> fst (run true (stage_target_update b target z) s) = Panic.
Proof.
  intros G H12 H13 A12 A13 Rt HCap HX HS. assert (RT : T12 * t / two_weeks < 2 ^ 256) by (eapply Z.lt_trans; [exact HS|reflexivity]). assert (HXw := HX). rewrite <- calc_word_eq in HXw.
  apply (owp_result _ s (fun r => r = Panic) G). intros rho Hag one.
  unfold stage_target_update. unfold idx. rewrite H12, H13. destruct (nth_error z 14) as [z14|]; cbn [unwrap lift bind enforce owp]; [|reflexivity].
  eapply owp_step; [apply (calc_hwp rho one z12 z13 T12 t HCap HXw (an_at_is _ _ _ _ A12 Hag one) (an_at_is _ _ _ _ A13 Hag one) Rt RT)|].
  cbv beta zeta. intros tc (K1 & K2 & K3 & K4).
  assert (VQ : value tc = Some (T12 * t / (2016 * 10 * 60))) by (rewrite (is_bn_value _ _ _ _ K1 eq_refl), K3; cbn [params_new limb_width]; now rewrite K4).
  rewrite VQ. cbn [unwrap lift bind]. apply an_u_panic. apply closure_small. split; [|exact HS].
  apply Z.div_pos; [|lia]. pose proof (proj1 (proj1 (proj2 A12))). lia.
Qed.

(** ** What the first two stages leave to the prover *)
Lemma pwp_assert {B} md rho r (f : unit -> prog B) ys Q : pwp md rho (f tt) ys Q -> pwp md rho (bind (assert_true r) f) ys Q.
Proof. intros H. unfold assert_true. destruct (bool_val r) as [[|]|]; cbn [unwrap lift bind assert pwp]; auto. Qed.
Theorem top_prev_free wit h z z0 v y s a s' rho0 : good_for rho0 s -> header_ok h -> nth_error z 0 = Some z0 ->
  carries_for rho0 s (lc_var (an_var z0)) v -> run wit (stage_prev_hash h z) s = (Ok a, s') -> canon y ->
  exists rho, same_on s rho rho0 /\ sat rho s' /\ feval rho (lc_var (an_var a)) = y.
Proof.
  intros G H Hz Cz Hr Cy. set (md := md_of wit). assert (Hmd : md <> Honest) by (unfold md; destruct wit; discriminate).
  set (bb := pad_bits (List.length (prev_words h)) []). assert (Wb : whole md (prev_words h) bb) by (apply pad_bits_whole; auto).
  assert (Cv : canon v) by (rewrite <- (Cz rho0 (same_on_refl _ _) (proj1 (G rho0 (same_on_refl _ _)))); apply fmk_canon).
  destruct (pwp_run wit (stage_prev_hash h z) s rho0 (map Z.b2z (flat_map (@rev bool) bb) ++ [y] ++ eq_aux v y ++ [])
    (fun rho a => eqp (rho (an_var a)) y) a s' G) as (rho & H1 & H2 & H3); auto.
  2:{ exists rho. split; [exact H1|]. split; [apply H2, same_on_refl|]. apply feval_eqp; auto. rewrite lc_eval_var. apply H3, same_on_refl. }
  intros rho Hs one. fold md. assert (Ez : eqp (rho (an_var z0)) v).
  { specialize (Cz rho Hs one). unfold feval in Cz. rewrite lc_eval_var in Cz. rewrite <- Cz. symmetry. apply eqp_fmk. }
  unfold stage_prev_hash, an_u. rewrite (prev_words_ok h H). unfold idx. rewrite Hz. cbn [unwrap lift bind].
  apply pwp_bind. eapply pwp_mono; [apply awp_pwp, (words_to_bits_awp rho one md _ _ bb Wb)|]. intros bits _.
  eapply pwp_step; [apply an_alloc_awp with (Q := fun a => eqp (rho (an_var a)) y); [contradiction|]|].
  { intros x v0 Hx _. cbn [an_var]. rewrite Hx. reflexivity. }
  intros ph Hph. eapply pwp_step; [apply (equals_awp rho one md z0 ph v y); auto|]. intros r _. apply pwp_assert. split; [reflexivity|exact Hph].
Qed.
Theorem top_pow_free wit h T y s b target hash s' rho0 : good_for rho0 s -> header_ok h ->
  run wit (stage_pow h) s = (Ok (b, target, hash), s') -> canon T -> canon y ->
  exists rho, same_on s rho rho0 /\ sat rho s' /\ feval rho (lc_var (an_var target)) = T /\ feval rho (lc_var (an_var hash)) = y.
Proof.
  intros G H Hr CT Cy. set (md := md_of wit). assert (Hmd : md <> Honest) by (unfold md; destruct wit; discriminate).
  set (bb := pad_bits (List.length h) []). assert (Wb : whole md h bb) by (apply pad_bits_whole; auto).
  destruct (pwp_run wit (stage_pow h) s rho0 ([T] ++ map Z.b2z (flat_map (@rev bool) bb) ++ map Z.b2z (sha256 (List.concat bb)) ++ map Z.b2z (sha256d (List.concat bb)) ++ [y] ++ cmp_aux true ++ [])
    (fun rho p => eqp (rho (an_var (snd (fst p)))) T /\ eqp (rho (an_var (snd p))) y) (b, target, hash) s' G) as (rho & H1 & H2 & H3); auto.
  2:{ exists rho. split; [exact H1|]. split; [apply H2, same_on_refl|]. destruct (H3 rho (same_on_refl _ _)). cbn [fst snd] in *.
      split; apply feval_eqp; auto; rewrite lc_eval_var; assumption. }
  intros rho Hs one. fold md. unfold stage_pow, an_u. apply pwp_host. intros h9 _. apply pwp_host. intros nb _. apply pwp_host. intros b0 _.
  eapply pwp_step; [apply an_alloc_awp with (Q := fun a => eqp (rho (an_var a)) T); [contradiction|]|].
  { intros x v0 Hx _. cbn [an_var]. rewrite Hx. reflexivity. }
  intros tg Htg. apply pwp_bind. eapply pwp_mono; [apply awp_pwp, (words_to_bits_awp rho one md _ _ bb Wb)|]. intros bits [HW _].
  assert (HL8 : (List.length bits mod 8 = 0)%nat) by (rewrite (bits_len _ _ _ HW), (whole_length _ _ _ Wb); apply mod8_64).
  eapply pwp_step; [apply (sha_awp rho md bits (List.concat bb) HL8); [apply HW|contradiction]|]. intros o1 [B1 _].
  assert (HL8' : (List.length o1 mod 8 = 0)%nat) by (rewrite (bits_len _ _ _ B1), sha256_length; reflexivity).
  eapply pwp_step; [apply (sha_awp rho md o1 (sha256 (List.concat bb)) HL8'); [apply B1|contradiction]|]. intros o2 _.
  eapply pwp_step; [apply an_alloc_awp with (Q := fun a => eqp (rho (an_var a)) y); [contradiction|]|].
  { intros x v0 Hx _. cbn [an_var]. rewrite Hx. reflexivity. }
  intros hh Hhh. eapply pwp_step; [apply (less_than_awp rho one md hh tg 224 true Hmd)|]. intros r _. apply pwp_assert.
  split; [reflexivity|]. cbn [fst snd]. split; assumption.
Qed.
End HeaderW.
