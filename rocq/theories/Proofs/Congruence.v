(** C108: linear congruences and modular inverses with the unknown chosen by the prover. *)
From Coq Require Import ZArith Znumtheory Bool List Lia ZifyBool ZifyNat.
From Verif.Model Require Import Base CS Bellpepper Util Poly Bignat Fields F64.
From Verif.Spec Require Import Spec SpecF64 SpecExpr SpecModular SpecExact SpecWide SpecSub SpecCongruence.
From Verif.Proofs Require Import Field Arith Convert Limbs Wp Lc BitNum PolyP BoolP BignatEq BignatAlloc Group Carry Regroup Mult MultC TopBits TopPoly TopBignat1 PureOps TopPure Owp MinBits MuxP SubP TopBignat2 TopBignat3 Room TopBignat4 PrimeFields F64P TopF64 ExactP TopExact SubFree DividesP Total TopTotal DecP OutOfRange Wide WidePower CheckedSub Residue.
Import ListNotations.
Local Open Scope Z_scope.

Lemma solvable A M R : 0 <= A -> 0 <= R < M -> (Z.gcd A M | R) -> exists x, 0 <= x < M /\ R <= A * x /\ (M | A * x - R).
Proof.
  intros HA HR [k Hk]. destruct (Z.gcd_bezout A M (Z.gcd A M) eq_refl) as (u & v & HB).
  pose proof (Z.mod_pos_bound (u * k) M ltac:(lia)) as HX. pose proof (Z.div_mod (u * k) M ltac:(lia)) as HD.
  set (x := (u * k) mod M) in *. set (t := (u * k) / M) in *.
  assert (D : A * x - R = M * (- (k * v) - A * t)).
  { clearbody x t. assert (EX : x = u * k - M * t) by lia. rewrite EX, Hk, <- HB. ring. }
  exists x. split; [exact HX|]. split; [|exists (- (k * v) - A * t); rewrite D; ring].
  destruct (Z.le_gt_cases R (A * x)); auto. assert (0 <= A * x) by nia.
  exfalso. set (c := - (k * v) - A * t) in *. clearbody c x. assert (- M < M * c < 0) by lia. assert (- 1 < c < 0) by nia. lia.
Qed.
Lemma unsolvable A M R x : (M | A * x - R) -> (Z.gcd A M | R).
Proof.
  intros H. replace R with (A * x - (A * x - R)) by ring. apply Z.divide_sub_r.
  - apply Z.divide_mul_l, Z.gcd_divide_l.
  - eapply Z.divide_trans; [apply Z.gcd_divide_r|exact H].
Qed.

Lemma gcd_one a b : (Z.gcd a b | 1) <-> Z.gcd a b = 1.
Proof. split; [|intros ->; apply Z.divide_refl]. intros H. apply Z.divide_1_r_nonneg; [apply Z.gcd_nonneg|exact H]. Qed.

Section Congruence.
Context {E : Env} {W : Wf E} (HU : usual_field E).

Lemma apm_word a b m r A B Mm R rho : plain64 a A -> plain64 b B -> plain64 m Mm -> plain64 r R ->
  ev rho (limbs a) A -> ev rho (limbs b) B -> ev rho (limbs m) Mm ->
  mod_word a b m (length A + length B) (max_word (bparams r)) (limb_width (bparams a)) =
  Z.max (product_word (length A) (2 ^ 64 - 1) (length B) (2 ^ 64 - 1)) (product_word (length A + length B) (2 ^ 64 - 1) (length Mm) (2 ^ 64 - 1) + (2 ^ 64 - 1)).
Proof.
  intros (WA & MA & _) (_ & MB & _) (_ & MM & _) (_ & MR & _) Ea Eb Em.
  unfold mod_word. rewrite (ev_length _ _ _ Ea), (ev_length _ _ _ Eb), (ev_length _ _ _ Em), WA, MA, MB, MM, MR. reflexivity.
Qed.

Lemma plain_new b B n : bparams b = params_new 64 n -> B <> [] -> Z.of_nat (length B) <= 2 ^ 40 -> plain64 b B.
Proof. intros H HB HL. unfold plain64. rewrite H. cbn [params_new limb_width max_word min_bits]. auto 6. Qed.

Lemma in_word64 b B : max_word (bparams b) = 2 ^ 64 - 1 -> digits B -> in_word b B.
Proof. intros H D. unfold in_word. rewrite H. eapply Forall_impl; [|exact D]. cbv beta. lia. Qed.

Lemma congruence_exact wit f n a m r A Mm R B s rho0 x s' : good_for rho0 s -> num64 rho0 s a A -> num64 rho0 s m Mm -> num64 rho0 s r R ->
  (1 <= n)%nat -> Z.of_nat n <= 2 ^ 40 -> Nat.Even (length A + n) -> 0 < int64 Mm ->
  run wit (congruence f n a m r) s = (Ok x, s') ->
  (completed s rho0 s' (fun rho => wires rho (limbs x) = B) <->
   length B = n /\ digits B /\ int64 R <= int64 A * int64 B /\ (int64 Mm | int64 A * int64 B - int64 R)).
Proof using HU W.
  intros G HA HM HR Hn Un Hev HZ Hr.
  destruct (num64_digits _ _ _ _ G HA) as (DA & LA & UA & NA). destruct (num64_digits _ _ _ _ G HM) as (DM & LM & UM & NM). destruct (num64_digits _ _ _ _ G HR) as (DR & LR & UR & NR).
  pose proof (digits_bound A DA) as BA. pose proof (digits_bound R DR) as BR. pose proof (digits_bound Mm DM) as BM.
  destruct (word_mods HU (length A) n (length A + n) (length Mm)) as (R1 & R2 & R3); auto; try lia.
  assert (HS : Z.of_nat (length A + n + length Mm) < modulus). { pose proof (cap_modulus HU). assert (2 ^ 42 < 2 ^ 236) by (apply Z.pow_lt_mono_r; lia). lia. }
  split.
  - intros (rho & Hso & Hs & <-). pose proof (proj1 Hs) as one.
    destruct (bignat_for_is _ _ _ _ _ wit G (proj1 HA) Hso one) as [(Ea & _) Wa].
    destruct (bignat_for_is _ _ _ _ _ wit G (proj1 HM) Hso one) as [(Em & _) Wm].
    destruct (bignat_for_is _ _ _ _ _ wit G (proj1 HR) Hso one) as [(Er & _) Wr].
    destruct HA as [_ PA]. destruct HM as [_ PM]. destruct HR as [_ PR].
    set (Q := fun x : bignat => length (wires rho (limbs x)) = n /\ digits (wires rho (limbs x)) /\ int64 R <= int64 A * int64 (wires rho (limbs x)) /\ (int64 Mm | int64 A * int64 (wires rho (limbs x)) - int64 R)).
    change (Q x). apply (swp_run_any wit rho (congruence f n a m r) s x s' Q Hr Hs). unfold congruence.
    sstep. sstep. apply alloc_from_nat_swp. intros b Pb Lb. sstep. sstep. eapply swp_mono; [apply assert_well_formed_swp; auto|]. cbv beta. intros _ DB.
    rewrite Pb in DB. cbn [params_new limb_width width1] in DB. change (2 ^ Z.of_nat (width1 64)) with (2 ^ 64) in DB. change (digits (wires rho (limbs b))) in DB.
    set (B := wires rho (limbs b)) in *. assert (LB : length B = n) by (unfold B, wires; rewrite map_length; exact Lb).
    assert (PB : plain64 b B) by (apply (plain_new b B n Pb); [intros K; rewrite K in LB; cbn [length] in LB; lia|lia]).
    sstep. sstep. eapply swp_mono.
    { apply (assert_product_mod_swp rho one Any a b m r A B Mm R Ea (ev_wires _ _) Em Er Wa (in_word64 _ _ (proj1 (proj2 PB)) DB) Wm Wr).
      - destruct PR as (_ & -> & _). lia.
      - rewrite LB. lia.
      - rewrite (apm_word a b m r A B Mm R rho PA PB PM PR Ea (ev_wires _ _) Em), LB. destruct PA as (-> & _). exact R1. }
    cbv beta zeta. intros q (_ & _ & _ & WQ & LQ & RQ & HV). destruct PA as (WA & _). rewrite WA in *. change (2 ^ Z.of_nat 64) with (2 ^ 64) in *. fold (int64 A) (int64 B) (int64 Mm) (int64 R) in HV.
    sstep. unfold Q. fold B. split; [exact LB|]. split; [exact DB|].
    assert (HQ : 0 <= int_of rho q). { unfold int_of. rewrite WQ. change (2 ^ Z.of_nat 64) with (2 ^ 64). fold (int64 (wires rho (limbs q))). apply digits_bound. exact RQ. }
    split; [nia|]. exists (int_of rho q). lia.
  - intros (LB & DB & HL & [k Hk]).
    assert (LB1 : (1 <= length B)%nat) by lia. assert (NB : B <> []) by (intros ->; cbn [length] in LB1; lia).
    pose proof (digits_product A B DA DB) as HP. pose proof (digits_bound B DB) as BB.
    assert (K0 : 0 <= k) by nia.
    destruct (exists_digits k (length A + length B)) as (Qd & LQ & DQ & VQ); [split; [lia|nia]|].
    assert (HE : int64 A * int64 B = int64 Qd * int64 Mm + int64 R) by lia.
    set (M := Z.max (product_word (length A) (2 ^ 64 - 1) (length B) (2 ^ 64 - 1)) (product_word (length A + length B) (2 ^ 64 - 1) (length Mm) (2 ^ 64 - 1) + (2 ^ 64 - 1))).
    assert (HX : no_excess 2 A B Qd Mm R). { apply (excess 2 A B Qd Mm R (length A + length B)); auto; try lia. apply common_even; [rewrite LB; exact Hev|lia|lia]. }
    destruct (awp_run wit (congruence f n a m r) s rho0 (range_aux 64 B ++ (range_aux 64 Qd ++ mod_aux 64 M (convs A B) (convs Qd Mm) R))
      (fun rho x => is_bn rho (md_of wit) x B) x s' G) as (rho & H1 & H2 & H3); [|exact Hr|].
    { intros rho Hso one.
      destruct (bignat_for_is _ _ _ _ _ wit G (proj1 HA) Hso one) as [Ia Wa].
      destruct (bignat_for_is _ _ _ _ _ wit G (proj1 HM) Hso one) as [Im Wm].
      destruct (bignat_for_is _ _ _ _ _ wit G (proj1 HR) Hso one) as [Ir Wr].
      destruct HA as [_ PA]. destruct HM as [_ PM]. destruct HR as [_ PR]. pose proof PA as (WA & _). pose proof PM as (WM & _). pose proof PR as (WR & _).
      unfold congruence. apply alloc_range_awp'; auto; [lia|apply (nb64 HU)|intros K; exact (md_of_not wit _ K)|].
      intros b Ib Pb Wb. pose proof (plain_new b B n Pb NB ltac:(lia)) as PB. pose proof PB as (WB & _).
      apply awp_bind_all. astep. eapply awp_mono.
      { pose proof (assert_product_mod_awp rho one (md_of wit) a b m r A B Mm Qd R) as K. cbv zeta in K. rewrite LQ in K.
        rewrite (apm_word a b m r A B Mm R rho PA PB PM PR (proj1 Ia) (proj1 Ib) (proj1 Im)) in K. fold M in K. rewrite WA in K. change (2 ^ Z.of_nat 64) with (2 ^ 64) in K.
        fold (int64 A) (int64 B) (int64 Qd) (int64 Mm) (int64 R) in K. apply K; auto; clear K; try lia.
        - destruct PR as (_ & -> & _). lia.
        - apply (nb64 HU).
        - unfold M. rewrite LB. exact R2.
        - unfold M. rewrite LB. rewrite <- LB in R3 |- *. apply sides_zero_no_excess; auto; try (now apply digits_nonneg); try lia. rewrite R3. exact HX.
        - apply md_of_not. }
      cbv beta. intros _ _. astep. exact Ib. }
    exists rho. split; [exact H1|]. split; [apply H2, same_on_refl|]. destruct (H3 rho (same_on_refl _ _)) as (I1 & _ & _ & I4 & _). now apply (ev_canon _ _ _ I1).
Qed.

Lemma congruence_solvable wit f n a m r A Mm R s rho0 x s' : good_for rho0 s -> num64 rho0 s a A -> num64 rho0 s m Mm -> num64 rho0 s r R ->
  (length Mm <= n)%nat -> Z.of_nat n <= 2 ^ 40 -> Nat.Even (length A + n) -> int64 R < int64 Mm ->
  run wit (congruence f n a m r) s = (Ok x, s') ->
  (completed s rho0 s' (fun _ => True) <-> (Z.gcd (int64 A) (int64 Mm) | int64 R)).
Proof using HU W.
  intros G HA HM HR Hn Un Hev HZ Hr.
  destruct (num64_digits _ _ _ _ G HA) as (DA & LA & UA & NA). destruct (num64_digits _ _ _ _ G HM) as (DM & LM & UM & NM). destruct (num64_digits _ _ _ _ G HR) as (DR & LR & UR & NR).
  pose proof (digits_bound A DA) as BA. pose proof (digits_bound R DR) as BR. pose proof (digits_bound Mm DM) as BM.
  pose proof (fun B => congruence_exact wit f n a m r A Mm R B s rho0 x s' G HA HM HR ltac:(lia) Un Hev ltac:(lia) Hr) as T. split.
  - intros (rho & H1 & H2 & _). destruct (proj1 (T (wires rho (limbs x)))) as (_ & _ & _ & K); [exists rho; auto|]. eapply unsolvable; eauto.
  - intros HG. destruct (solvable (int64 A) (int64 Mm) (int64 R)) as (v & Hv & HL & HD); auto; try lia.
    assert (HP : 2 ^ Z.of_nat (64 * length Mm) <= 2 ^ Z.of_nat (64 * n)) by (apply Z.pow_le_mono_r; lia).
    destruct (exists_digits v n) as (B & LB & DB & VB); [lia|].
    destruct (proj2 (T B)) as (rho & H1 & H2 & _); [rewrite VB; auto|]. exists rho. auto.
Qed.

Lemma congruence_inverse wit f n a m r A Mm R s rho0 x s' : good_for rho0 s -> num64 rho0 s a A -> num64 rho0 s m Mm -> num64 rho0 s r R ->
  (length Mm <= n)%nat -> Z.of_nat n <= 2 ^ 40 -> Nat.Even (length A + n) -> int64 R = 1 -> 1 < int64 Mm ->
  run wit (congruence f n a m r) s = (Ok x, s') ->
  (completed s rho0 s' (fun _ => True) <-> rel_prime (int64 A) (int64 Mm)) /\
  (forall B, completed s rho0 s' (fun rho => wires rho (limbs x) = B) <-> length B = n /\ digits B /\ (int64 A * int64 B) mod int64 Mm = 1).
Proof using HU W.
  intros G HA HM HR Hn Un Hev H1 HZ Hr. split.
  - rewrite (congruence_solvable wit f n a m r A Mm R s rho0 x s' G HA HM HR Hn Un Hev ltac:(lia) Hr), H1, (gcd_one (int64 A) (int64 Mm)).
    apply Zgcd_1_rel_prime.
  - intros B. destruct (num64_digits _ _ _ _ G HM) as (DM & LM & _). destruct (num64_digits _ _ _ _ G HA) as (DA & _).
    rewrite (congruence_exact wit f n a m r A Mm R B s rho0 x s' G HA HM HR ltac:(lia) Un Hev ltac:(lia) Hr), H1.
    split; intros (K1 & K2 & K3); split; auto; split; auto.
    + destruct K3 as [K3 [k Hk]]. symmetry. apply Zmod_unique with k; lia.
    + pose proof (Z.div_mod (int64 A * int64 B) (int64 Mm) ltac:(lia)) as KD. rewrite K3 in KD.
      assert (0 <= int64 A * int64 B) by (pose proof (digits_bound A DA); pose proof (digits_bound B K2); nia).
      assert (0 <= int64 A * int64 B / int64 Mm) by (apply Z.div_pos; lia).
      split; [nia|]. exists (int64 A * int64 B / int64 Mm). lia.
Qed.

Lemma congruence_honest v n a m r A Mm R s : good s -> num64_at s a A -> num64_at s m Mm -> num64_at s r R ->
  (1 <= n)%nat -> Z.of_nat n <= 2 ^ 40 -> Nat.Even (length A + n) -> 0 < int64 Mm -> 0 <= v < 2 ^ Z.of_nat (64 * n) ->
  exists x s', run true (congruence (Ok v) n a m r) s = (Ok x, s') /\ value x = Some v /\ (good s' <-> (int64 A * v) mod int64 Mm = int64 R).
Proof using HU W.
  intros G HA HM HR Hn Un Hev HZ Hv. pose proof (good_good_for s G) as GF.
  destruct (num64_digits _ _ _ _ GF (at_num64 _ _ _ HA)) as (DA & LA & UA & _). destruct (num64_digits _ _ _ _ GF (at_num64 _ _ _ HM)) as (DM & LM & UM & _). destruct (num64_digits _ _ _ _ GF (at_num64 _ _ _ HR)) as (DR & LR & UR & _).
  destruct HA as [Ha PA]. destruct HM as [Hm PM]. destruct HR as [Hx PR].
  destruct (digits_facts 64 n v Hv) as (LD & RD & VD). set (B := map (digit 64 v) (seq 0 n)) in *. change (2 ^ Z.of_nat 64) with (2 ^ 64) in RD, VD. fold (int64 B) in VD. change (digits B) in RD.
  assert (NB : B <> []) by (intros K; rewrite K in LD; cbn [length] in LD; lia).
  destruct (word_mods HU (length A) n (length A + n) (length Mm)) as (R1 & R2 & R3); auto; try lia.
  pose proof (digits_product A B DA RD) as HP. rewrite LD in HP.
  destruct (dec_run (congruence (Ok v) n a m r) s ((int64 A * v) mod int64 Mm = int64 R) (fun rho x => is_bn rho Honest x B /\ bparams x = params_new 64 n) G) as (x & s' & H1 & H2 & H3).
  { intros rho Hag one. destruct (bignat_at_is _ _ _ _ Ha Hag one) as [Ia Wa]. destruct (bignat_at_is _ _ _ _ Hm Hag one) as [Im Wm]. destruct (bignat_at_is _ _ _ _ Hx Hag one) as [Ir Wr].
    unfold congruence. eapply dec_step.
    { apply hwp_ns. eapply hwp_awp. apply (alloc_from_nat_awp rho Honest (Ok v) 64 n B (fun x => is_bn rho Honest x B /\ bparams x = params_new 64 n)); auto.
      - eapply Forall_impl; [|exact RD]. cbv beta. intros z Hz. pose proof (cap_modulus HU). assert (2 ^ 64 < 2 ^ 236) by (apply Z.pow_lt_mono_r; lia). unfold canon. lia.
      - intros _. split; [exact Hn|]. split; [apply (nb64 HU)|]. exists v. auto. }
    cbv beta. intros b [Ib Pb]. pose proof (plain_new b B n Pb NB ltac:(lia)) as PB. pose proof (in_word64 b B (proj1 (proj2 PB)) RD) as Wb.
    pose proof PA as (WA & _). pose proof PM as (WM & _). pose proof PR as (WR & MR & _). pose proof PB as (WB & _).
    eapply dec_step.
    { apply hwp_ns. eapply hwp_awp. apply (assert_well_formed_awp rho one Honest b B Ib).
      - rewrite WB. change (2 ^ Z.of_nat (width1 64)) with (2 ^ 64). eapply Forall_impl; [|exact RD]. cbv beta. lia.
      - intros _. rewrite WB. pose proof (nb64 HU). lia. }
    intros _ _. eapply dec_iff; [|eapply dec_bind; [apply dec_ns|intros q _; apply dec_ret; auto]].
    2: { pose proof (apm_dec rho one a b m r A B Mm R) as K. cbv zeta in K. rewrite WA in K. replace (mod_word a b m (length A + length B) (max_word (bparams r)) 64) with (mod_word a b m (length A + length B) (max_word (bparams r)) (limb_width (bparams a))) in K by now rewrite WA.
      rewrite (apm_word a b m r A B Mm R rho PA PB PM PR (proj1 Ia) (proj1 Ib) (proj1 Im)), LD, R3 in K. change (2 ^ Z.of_nat 64) with (2 ^ 64) in K. fold (int64 A) (int64 B) (int64 Mm) (int64 R) in K.
      apply K; auto; clear K; try lia; [apply (nb64 HU)|]. rewrite VD. apply quotient_small; [rewrite <- VD; exact HP|exact HZ]. }
    cbv beta. rewrite VD. split; [intros [[K _] _]; now symmetry|]. intros K. split; [|exact I]. split; [now symmetry|].
    assert (HQ : 0 <= int64 A * v / int64 Mm < 2 ^ Z.of_nat (64 * (length A + n))).
    { split; [apply Z.div_pos; [rewrite <- VD; lia|lia]|]. apply quotient_small; [rewrite <- VD; exact HP|exact HZ]. }
    destruct (digits_facts 64 (length A + n) (int64 A * v / int64 Mm) HQ) as (LQ & DQ & VQ). set (Qd := map (digit 64 (int64 A * v / int64 Mm)) (seq 0 (length A + n))) in *.
    change (2 ^ Z.of_nat 64) with (2 ^ 64) in DQ, VQ. fold (int64 Qd) in VQ. change (digits Qd) in DQ.
    apply (excess 2 A B Qd Mm R (length A + n)); auto; try lia.
    rewrite LD, LQ. apply common_even; auto; lia. }
  exists x, s'. split; [exact H1|]. split; [|exact H3]. destruct (H2 _ (agree_asg s')) as [K1 K2].
  rewrite (is_bn_value _ _ _ _ K1 eq_refl), K2. cbn [params_new limb_width]. change (2 ^ Z.of_nat 64) with (2 ^ 64). fold (int64 B). now rewrite VD.
Qed.
End Congruence.

(** Three has an inverse modulo 2^127 - 1; six has none modulo 2^126. *)
Lemma congruence_witness : let E := pallas_f64 log2_down true in
  let three x nx y ny z nz := let! ab := (let! a := alloc_from_nat (Ok x) 64 nx in let! b := alloc_from_nat (Ok y) 64 ny in Ret (a, b)) in let! c := alloc_from_nat (Ok z) 64 nz in Ret (ab, c) in
  (exists a m r s x s', run true (three 3 2%nat (2 ^ 127 - 1) 2%nat 1 1%nat) st_init = (Ok (a, m, r), s) /\ good s /\
     run true (congruence (Ok ((2 ^ 128 - 1) / 3)) 2 a m r) s = (Ok x, s') /\ good s' /\ value x = Some ((2 ^ 128 - 1) / 3) /\ completed s (asg s) s' (fun _ => True)) /\
  (exists a m r s x s', run true (three 6 2%nat (2 ^ 126) 2%nat 1 1%nat) st_init = (Ok (a, m, r), s) /\ good s /\
     run true (congruence (Ok 5) 2 a m r) s = (Ok x, s') /\ ~ completed s (asg s) s' (fun _ => True)).
Proof.
  intros E three. pose proof (proj1 (usual_pallas log2_down true log2_down_faithful)) as HU. pose proof (wf_pallas_f64 log2_down true) as W. fold E in HU, W. split.
  - destruct (wide_three HU 3 2 (2 ^ 127 - 1) 2 1 1) as (a & m & r & A & Mm & R & s & R0 & G & NA & NM & NR & LA & LM & LR & VA & VM & VR); try lia.
    assert (HE : Nat.Even (length A + 2)) by (rewrite LA; exists 2%nat; reflexivity).
    destruct (congruence_honest HU ((2 ^ 128 - 1) / 3) 2 a m r A Mm R s G NA NM NR ltac:(lia) ltac:(lia) HE ltac:(rewrite VM; lia) ltac:(split; [discriminate|reflexivity])) as (x & s' & H1 & H2 & H3).
    rewrite VA, VM, VR in H3. assert (G' : good s') by (apply H3; reflexivity).
    exists a, m, r, s, x, s'. split; [exact R0|]. split; [exact G|]. split; [exact H1|]. split; [exact G'|]. split; [exact H2|].
    apply (proj1 (congruence_inverse HU true _ 2 a m r A Mm R s (asg s) x s' (good_good_for s G) (at_num64 _ _ _ NA) (at_num64 _ _ _ NM) (at_num64 _ _ _ NR) ltac:(lia) ltac:(lia) HE VR ltac:(rewrite VM; lia) H1)).
    rewrite VA, VM. apply Zgcd_1_rel_prime. reflexivity.
  - destruct (wide_three HU 6 2 (2 ^ 126) 2 1 1) as (a & m & r & A & Mm & R & s & R0 & G & NA & NM & NR & LA & LM & LR & VA & VM & VR); try lia.
    assert (HE : Nat.Even (length A + 2)) by (rewrite LA; exists 2%nat; reflexivity).
    destruct (congruence_honest HU 5 2 a m r A Mm R s G NA NM NR ltac:(lia) ltac:(lia) HE ltac:(rewrite VM; lia) ltac:(lia)) as (x & s' & H1 & H2 & H3).
    exists a, m, r, s, x, s'. split; [exact R0|]. split; [exact G|]. split; [exact H1|]. intros N.
    apply (proj1 (congruence_inverse HU true _ 2 a m r A Mm R s (asg s) x s' (good_good_for s G) (at_num64 _ _ _ NA) (at_num64 _ _ _ NM) (at_num64 _ _ _ NR) ltac:(lia) ltac:(lia) HE VR ltac:(rewrite VM; lia) H1)) in N.
    rewrite VA, VM in N. apply Zgcd_1_rel_prime in N. discriminate.
Qed.
