(** Exact conditions for the recomputed target (C52, C62). *)
From Coq Require Import ZArith Znumtheory Bool String List Lia Setoid Morphisms ZifyBool ZifyNat.
From Verif.Model Require Import Base CS Bellpepper Util Poly Bignat Ints Median Difficulty.
From Verif.Spec Require Import Spec SpecExact.
From Verif.Proofs Require Import Field Arith Convert Limbs Wp Lc BitNum PolyP BoolP BignatEq BignatAlloc Group Carry Regroup TopBits
  Mult MultC PureOps TopBignat1 TopBignat2 Owp Shp Room TopBignat3 TopBignat4 Pwp MedianP MedianV TopMedian DifficultyP DifficultyV
  TopDifficulty Total DecP ExactP TopExact.
Import ListNotations.
Local Open Scope string_scope.
Local Open Scope Z_scope.
Local Open Scope list_scope.

Section DiffExact.
Context {E : Env} {W : Wf E}.

Lemma dec_unwrap {A} rho (m : prog A) P Q : dec rho m P Q -> dec rho (unwrap_prog m) P Q.
Proof.
  intros (H1 & H2 & H3). split; [|split].
  - clear -H1. unfold twp in *. induction m as [a|e| |inp nm w k IH|nm c k IH|nm k IH|k IH]; cbn in *; auto.
    + destruct H1 as (a & X & _). discriminate.
    + destruct w as [z|e|]; cbn in *; auto. destruct H1 as (a & X & _). discriminate.
  - now apply swp_unwrap.
  - intros HP. apply hwp_unwrap. auto.
Qed.

(** The excess of the division: the top limb of quotient times divisor. *)
Lemma calc_sides_iff T t d q r : group_size calc_word 64 = 1%nat -> 0 <= q < 2 ^ 320 ->
  sides_zero calc_word 64 (convs (digits64 4 T) (digits64 1 t)) (rsum (convs (digits64 5 q) [d]) (digits64 1 r)) <->
  q < 2 ^ 256 \/ d = 0.
Proof.
  intros Hg Hq. split; [|now apply calc_sides].
  unfold sides_zero. rewrite Hg, rsum_length, !convs_length.
  change (List.length (digits64 4 T)) with 4%nat. change (List.length (digits64 1 t)) with 1%nat.
  change (List.length (digits64 5 q)) with 5%nat. change (List.length (digits64 1 r)) with 1%nat. cbn [List.length].
  change (Nat.min (n_groups (4 + 1 - 1) 1) (n_groups (Nat.max (5 + 1 - 1) 1) 1) * 1)%nat with 4%nat.
  intros H. destruct (H 4%nat (le_n _)) as [_ H4]. rewrite rsum_nth in H4.
  rewrite (nth_overflow (digits64 1 r)) in H4 by (cbn; lia).
  unfold convs in H4. rewrite nth_map_seq in H4 by (cbn; lia). unfold conv in H4. cbn [sum_n Nat.sub nth] in H4.
  unfold digits64 at 5 in H4. cbn [seq map nth] in H4.
  assert (HZ : digit 64 q 4 * d = 0) by lia. apply Z.mul_eq_0 in HZ. destruct HZ as [HZ|HZ]; [left|now right].
  unfold digit in HZ. change (Z.of_nat (64 * 4)) with 256 in HZ. change (Z.of_nat 64) with 64 in HZ.
  assert (HB : q / 2 ^ 256 < 2 ^ 64) by (apply Z.div_lt_upper_bound; [reflexivity|]; apply Hq).
  assert (HB0 : 0 <= q / 2 ^ 256) by (apply Z.div_pos; [lia|reflexivity]).
  rewrite Z.mod_small in HZ by auto. apply Z.div_small_iff in HZ; [|discriminate]. lia.
Qed.

Section Rho.
Context (rho : assignment) (one : rho ONE = 1).

Lemma calc_tail_dec t_sum prev T t :
  let q := T * t / two_weeks in
  (194 <= CAPACITY <= 255)%nat -> exact_carries calc_word 64 ->
  is_bn rho Honest prev (digits64 4 T) -> in_word prev (digits64 4 T) -> bparams prev = params_new 64 4 ->
  is_bn rho Honest t_sum (digits64 1 t) -> in_word t_sum (digits64 1 t) -> bparams t_sum = params_new 64 1 ->
  0 <= T < 2 ^ 256 -> 0 <= t < 2 ^ 64 ->
  dec rho (calc_tail t_sum prev) (q < 2 ^ 256)
    (fun b => is_bn rho Honest b (digits64 5 q) /\ in_word b (digits64 5 q) /\ bparams b = params_new 64 5 /\
       value_of (2 ^ Z.of_nat 64) (digits64 5 q) = q).
Proof.
  intros q HC HX HT WT PT Ht Wt Pt RT Rt.
  destruct (calc_room HC HX) as (Hnw & Hroom & Hg).
  assert (HN : (128 < NUM_BITS)%nat) by (unfold CAPACITY in HC; lia).
  assert (HNB : 2 ^ 128 <= modulus) by (apply (width_lt_modulus 128); auto).
  set (d := two_weeks) in *. assert (Rd : 0 <= d < 2 ^ 128) by (split; [discriminate|reflexivity]).
  assert (d0 : 0 < d) by reflexivity. assert (d64 : d <= 2 ^ 64) by discriminate.
  assert (Cd : canon d) by (split; lia).
  assert (Dd : map (digit 128 d) (seq 0 1) = [d]) by reflexivity.
  destruct (digits_facts 64 4 T) as (LA & RA & VA). { change (Z.of_nat (64 * 4)) with 256. lia. }
  destruct (digits_facts 64 1 t) as (LB & RB & VB). { change (Z.of_nat (64 * 1)) with 64. lia. }
  fold (digits64 4 T) in LA, RA, VA. fold (digits64 1 t) in LB, RB, VB.
  assert (V0 : 0 <= T * t) by (apply Z.mul_nonneg_nonneg; lia).
  assert (Rq : 0 <= q < 2 ^ 320).
  { unfold q. split; [apply Z.div_pos; lia|]. apply Z.div_lt_upper_bound; [lia|].
    apply Z.lt_le_trans with (2 ^ 256 * 2 ^ 64); [apply Z.mul_lt_mono_nonneg; lia|]. change (2 ^ 256 * 2 ^ 64) with (1 * 2 ^ 320).
    apply Z.mul_le_mono_nonneg_r; lia. }
  unfold calc_tail. eapply dec_step. { eapply hwp_awp. apply (num_u_awp rho Honest _ _ d); auto. intros _. unfold from_u64. now rewrite fmk_id. }
  intros n [N1 N2]. eapply dec_step.
  { unfold bignat_u. do 2 hstep. eapply hwp_awp. apply (from_num_int_awp rho one Honest n 128 1 d d); auto. - now rewrite N1. - reflexivity. }
  cbv beta zeta. rewrite Dd. intros m (M1 & M2 & M3 & M4).
  eapply dec_iff; [|eapply dec_bind; [apply dec_unwrap, dec_ns|]].
  2:{ pose proof (mult_mod_dec rho one prev t_sum m (digits64 4 T) (digits64 1 t) [d]) as H. cbv zeta in H.
      unfold mod_word, n_bits_of in H. rewrite (ev_length _ _ _ (proj1 HT)), (ev_length _ _ _ (proj1 Ht)), (ev_length _ _ _ (proj1 M1)) in H.
      rewrite PT, Pt, M2 in H. rewrite !params_word in H. cbn [params_new limb_width List.length n_limbs min_bits] in H.
      rewrite LA, LB, VA, VB in H.
      change (q_limbs _ _ 64) with 5%nat in H. fold calc_word in H.
      replace (value_of (2 ^ Z.of_nat 64) [d]) with d in H by (cbn [value_of]; ring). fold q in H.
      change (Z.of_nat (64 * 5)) with 320 in H. change (Z.of_nat (64 * 1)) with 64 in H.
      apply H; auto; try lia. }
  { instantiate (1 := True). rewrite Hg.
    pose proof (sides_zero_no_excess calc_word 64 (digits64 4 T) (digits64 1 t) (digits64 5 q) [d] (digits64 1 (T * t mod d))) as HS.
    rewrite Hg in HS. fold (digits64 5 q). fold (digits64 1 (T * t mod d)).
    rewrite <- HS; try (cbn [List.length]; lia); try (unfold digits64; rewrite map_length, seq_length; lia).
    - rewrite calc_sides_iff; auto. split; [intros [[|] _]; [auto|lia]|auto].
    - exact (ranges_nonneg _ _ (digits_range 64 _ 5)).
    - constructor; [lia|constructor].
    - exact (ranges_nonneg _ _ (digits_range 64 _ 1)). }
  intros [b r'] (K1 & _ & K3 & _ & K5 & _). cbn [fst snd] in *. apply dec_ret. split; [exact K1|]. split; [exact K3|]. split; [exact K5|].
  apply (digits_facts 64 5 q). exact Rq.
Qed.

Lemma calc_dec prev ts T t : (194 <= CAPACITY <= 255)%nat -> exact_carries calc_word 64 ->
  is_an rho prev T -> is_an rho ts t -> 302400 < t < 4838400 ->
  let q := T * t / two_weeks in
  dec rho (calculate_difficulty_update prev ts) (q < 2 ^ 256) (fun b => is_bn rho Honest b (digits64 5 q) /\ in_word b (digits64 5 q) /\
    bparams b = params_new 64 5 /\ value_of (2 ^ Z.of_nat 64) (digits64 5 q) = q).
Proof.
  intros HC HX IT It Rt q. pose proof (proj1 (proj2 IT)) as CT. pose proof (proj1 (proj2 It)) as Ct.
  assert (HN : (194 < NUM_BITS)%nat) by (unfold CAPACITY in HC; lia).
  assert (HP : 2 ^ 194 <= modulus) by (apply (width_lt_modulus 194); auto).
  assert (HPU : modulus < 2 ^ 256).
  { pose proof modulus_bits as [_ B]. eapply Z.lt_le_trans; [exact B|]. apply Z.pow_le_mono_r; unfold CAPACITY in HC; lia. }
  unfold calculate_difficulty_update. eapply dec_step.
  { unfold bignat_u. do 2 hstep. eapply hwp_awp.
    apply (from_num_int_awp rho one Honest (num_from ts) 64 1 t t); [lia|lia|lia| |reflexivity|].
    - cbn [num_from n_lc]. rewrite lc_eval_var. apply It.
    - intros _. split; auto. apply It. }
  cbv beta zeta. intros t_sum (S1 & S2 & S3 & S4). eapply dec_step.
  { unfold bignat_u. do 2 hstep. eapply hwp_awp.
    apply (from_num_int_awp rho one Honest (num_from prev) 64 4 T T); [destruct CT; lia|lia|lia| |reflexivity|].
    - cbn [num_from n_lc]. rewrite lc_eval_var. apply IT.
    - intros _. split; auto. apply IT. }
  cbv beta zeta. intros prev_targ (P1 & P2 & P3 & P4).
  eapply dec_step; [apply an_u_hwp|]. intros lo Hlo.
  eapply dec_step; [apply an_u_hwp|]. intros up Hup.
  eapply dec_step; [apply (lt_u_hwp rho one _ _ _ _ _ Hlo It); lia|]. cbv beta. intros r1 Hr1.
  eapply dec_step; [apply (lt_u_hwp rho one _ _ _ _ _ It Hup); lia|]. cbv beta. intros r2 Hr2.
  change (two_weeks / 4) with 302400 in Hr1. change (two_weeks * 4) with 4838400 in Hr2.
  assert (HB : r1 && r2 = true). { rewrite Hr1, Hr2, span_check by (auto; lia). lia. }
  rewrite HB. change (dec rho (calc_tail t_sum prev_targ) (q < 2 ^ 256) (fun b => is_bn rho Honest b (digits64 5 q) /\ in_word b (digits64 5 q) /\
    bparams b = params_new 64 5 /\ value_of (2 ^ Z.of_nat 64) (digits64 5 q) = q)).
  destruct CT as [CT1 CT2]. apply calc_tail_dec; auto; lia.
Qed.

Lemma digits64_value k D : List.length D = k -> Forall (fun v => 0 <= v < 2 ^ Z.of_nat 64) D ->
  D = digits64 k (value_of (2 ^ Z.of_nat 64) D).
Proof.
  intros HL HR. assert (HB : 0 <= value_of (2 ^ Z.of_nat 64) D < 2 ^ Z.of_nat (64 * k)).
  { rewrite <- HL, pow2_mul. apply value_of_bound; auto using pow2_pos. }
  destruct (digits_facts 64 k _ HB) as (L1 & R1 & V1). apply (value_of_inj (2 ^ Z.of_nat 64)); auto using pow2_pos.
  rewrite HL. symmetry. exact L1.
Qed.

Lemma calc_zero_swp md prev ts : (194 <= CAPACITY <= 255)%nat -> exact_carries calc_word 64 ->
  swp md rho (calculate_difficulty_update prev ts) (fun b => limb_width (bparams b) = 64%nat /\
    exists T t d r, eqp (rho (an_var prev)) T /\ eqp (rho (an_var ts)) t /\
      0 <= T < 2 ^ 256 /\ 0 <= t < 2 ^ 64 /\ 0 <= d < 2 ^ 128 /\ 0 <= r < 2 ^ 64 /\ 0 <= int_of rho b < 2 ^ 320 /\
      T * t = int_of rho b * d + r /\ (int_of rho b < 2 ^ 256 \/ d = 0)).
Proof.
  intros HC HX. destruct (calc_room HC HX) as (Hnw & Hroom & Hg).
  assert (HN : (194 < NUM_BITS)%nat) by (unfold CAPACITY in HC; lia).
  assert (HP : 2 ^ 194 <= modulus) by (apply (width_lt_modulus 194); auto).
  unfold calculate_difficulty_update, bignat_u, an_u, num_u.
  do 3 sstep. eapply swp_mono; [apply (from_num_int_swp rho one)|]. cbv beta. intros t_sum (Dt & (S1 & S2 & S3 & S4 & S5) & S6).
  do 3 sstep. eapply swp_mono; [apply (from_num_int_swp rho one)|]. cbv beta. intros prev_targ (DT & (P1 & P2 & P3 & P4 & P5) & P6).
  do 3 sstep. apply an_alloc_swp. intros ? ? _. do 3 sstep. apply an_alloc_swp. intros ? ? _.
  sstep. eapply swp_mono; [apply swp_true|]. intros r1 _. sstep. eapply swp_mono; [apply swp_true|]. intros r2 _.
  destruct (r1 && r2); [|exact I]. cbn [assert bind].
  do 3 sstep. eapply swp_mono; [apply swp_true|]. intros n _.
  do 3 sstep. eapply swp_mono; [apply (from_num_int_swp rho one)|]. cbv beta. intros m (Dm & (M1 & M2 & M3 & M4 & M5) & _).
  do 3 sstep. pose proof (mult_mod_swp rho one md prev_targ t_sum m DT Dt Dm) as H.
  pose proof (mult_mod_zero_swp rho one md prev_targ t_sum m DT Dt Dm) as H'. cbv zeta in H, H'.
  rewrite P1 in H, H'. cbn [params_new limb_width] in H, H'.
  assert (HLq : swp md rho (mult_mod prev_targ t_sum m) (fun qr => List.length (limbs (fst qr)) = 5%nat /\ bparams (fst qr) = params_new 64 5)).
  { pose proof (mult_mod_len_swp rho md prev_targ t_sum m 256 64 64) as K. rewrite M1 in K. apply K; try lia.
    - unfold n_bits. rewrite P1. reflexivity.
    - unfold n_bits. rewrite S1. reflexivity.
    - now rewrite P1. }
  assert (HLt : Z.of_nat (List.length DT + List.length Dt - 1) < modulus) by (rewrite P4, S4; cbn; lia).
  specialize (H P2 S2 M2 P3 S3 M3 HLt). specialize (H' P2 S2 M2 P3 S3 M3 HLt).
  eapply swp_mono; [eapply swp_and; [exact HLq|eapply swp_and; [exact H|exact H']]|]; clear H H' HLq.
  cbv beta. intros [q r] (HL & K & K'). cbn [fst] in HL. destruct HL as [HL HQ]. sstep.
  assert (HM : mod_word prev_targ t_sum m (List.length (limbs q)) (2 ^ Z.of_nat 64 - 1) 64 = calc_word).
  { unfold mod_word. rewrite (ev_length _ _ _ P2), (ev_length _ _ _ S2), (ev_length _ _ _ M2), P4, S4, M4, P1, S1, M1, HL, !params_word. reflexivity. }
  rewrite HM in K, K'. rewrite HL, M4 in K, K'.
  specialize (K ltac:(cbn; lia) Hnw). specialize (K' ltac:(cbn; lia) Hnw).
  destruct K as (K1 & K2 & K3 & K4 & K5 & K6 & K7). unfold range_wires in K5, K6.
  unfold in_word in P3, S3. 
  destruct Dm as [|d [|]]; try discriminate M4. cbn [value_of] in M5, K7. change (Z.of_nat (128 * 1)) with 128 in M5.
  split; auto. unfold int_of in *. rewrite K2, K3 in *.
  assert (HW : List.length (wires rho (limbs q)) = 5%nat) by now rewrite wires_length.
  assert (HWr : List.length (wires rho (limbs r)) = 1%nat) by now rewrite wires_length.
  set (qv := value_of (2 ^ Z.of_nat 64) (wires rho (limbs q))) in *. set (rv := value_of (2 ^ Z.of_nat 64) (wires rho (limbs r))) in *.
  assert (Bq : 0 <= qv < 2 ^ 320) by (apply (digits_bound 64 5); auto).
  exists (value_of (2 ^ Z.of_nat 64) DT), (value_of (2 ^ Z.of_nat 64) Dt), d, rv.
  cbn [num_from n_lc] in P6, S6. rewrite lc_eval_var in P6, S6.
  split; auto. split; auto. split; [exact P5|]. split; [exact S5|]. split; [lia|]. split; [apply (digits_bound 64 1); auto|].
  split; [exact Bq|]. split; [rewrite K7; ring|].
  rewrite P1, params_word in P3. rewrite S1, params_word in S3.
  assert (RT : Forall (fun v => 0 <= v < 2 ^ Z.of_nat 64) DT) by (eapply Forall_impl; [|exact P3]; cbv beta; lia).
  assert (Rt : Forall (fun v => 0 <= v < 2 ^ Z.of_nat 64) Dt) by (eapply Forall_impl; [|exact S3]; cbv beta; lia).
  rewrite (digits64_value 4 DT P4 RT), (digits64_value 1 Dt S4 Rt), (digits64_value 5 _ HW K5), (digits64_value 1 _ HWr K6) in K'.
  fold qv rv in K'. apply (calc_sides_iff _ _ d qv rv Hg Bq) in K'. exact K'.
Qed.
End Rho.

Lemma top_calculate_decides prev ts T t s :
  good s -> an_at s prev T -> an_at s ts t -> 302400 < t < 4838400 ->
  (194 <= CAPACITY <= 255)%nat -> exact_carries ((2 ^ 64 - 1) * 2 ^ 128) 64 ->
  exists b s' vs, run true (calculate_difficulty_update prev ts) s = (Ok b, s') /\ bignat_at s' b vs /\
    limb_width (bparams b) = 64%nat /\ List.length (limbs b) = 5%nat /\ value b = Some (T * t / (2016 * 10 * 60)) /\
    (good s' <-> T * t / (2016 * 10 * 60) < 2 ^ 256).
Proof.
  intros G HT Ht Rt HC HX. rewrite <- calc_word_eq in HX.
  destruct (dec_run (calculate_difficulty_update prev ts) s (T * t / two_weeks < 2 ^ 256) (fun rho b => is_bn rho Honest b (digits64 5 (T * t / two_weeks)) /\
     in_word b (digits64 5 (T * t / two_weeks)) /\ bparams b = params_new 64 5 /\
     value_of (2 ^ Z.of_nat 64) (digits64 5 (T * t / two_weeks)) = T * t / two_weeks) G) as (b & s' & Hr & HQ & Hg).
  { intros rho Hag one. apply (calc_dec rho one prev ts T t HC HX (an_at_is _ _ _ _ HT Hag one) (an_at_is _ _ _ _ Ht Hag one) Rt). }
  destruct (HQ _ (agree_asg s')) as (K1 & K2 & K3 & K4).
  exists b, s', (digits64 5 (T * t / two_weeks)). split; auto. split; [|split; [|split; [|split]]].
  - apply is_bignat_at; auto. intros rho Hrho. apply (HQ _ Hrho).
  - now rewrite K3.
  - rewrite (ev_length _ _ _ (proj1 K1)). reflexivity.
  - rewrite (is_bn_value _ _ _ _ K1 eq_refl), K3. cbn [params_new limb_width]. rewrite K4. reflexivity.
  - exact Hg.
Qed.

(** Every result the constraints accept, exactly. *)
Lemma top_calculate_prover wit prev ts T t q s b s' rho0 :
  good_for rho0 s -> carries_for rho0 s (lc_var (an_var prev)) T -> carries_for rho0 s (lc_var (an_var ts)) t ->
  run wit (calculate_difficulty_update prev ts) s = (Ok b, s') ->
  (194 <= CAPACITY <= 255)%nat -> exact_carries ((2 ^ 64 - 1) * 2 ^ 128) 64 ->
  ((exists rho, same_on s rho rho0 /\ sat rho s' /\ int_of rho b = q) <->
   t < 2 ^ 64 /\ 0 <= q /\ exists T' d r, T' mod modulus = T /\ 0 <= T' < 2 ^ 256 /\ 0 <= d < 2 ^ 128 /\ 0 <= r < 2 ^ 64 /\
     T' * t = q * d + r /\ (q < 2 ^ 256 \/ d = 0 /\ q < 2 ^ 320)).
Proof.
  intros G HT Ht Hr HC HX. rewrite <- calc_word_eq in HX.
  assert (HN : (194 < NUM_BITS)%nat) by (unfold CAPACITY in HC; lia).
  assert (HP : 2 ^ 194 <= modulus) by (apply (width_lt_modulus 194); auto).
  pose proof (same_on_refl s rho0) as R0. pose proof (proj1 (G _ R0)) as one0.
  assert (Ct : 0 <= t) by (rewrite <- (Ht _ R0 one0); unfold feval; apply Z.mod_pos_bound; lia).
  split.
  - intros (rho & Hso & Hs & EQ).
    destruct (swp_run_any _ _ _ _ _ _ _ Hr Hs (calc_zero_swp rho (proj1 Hs) Any prev ts HC HX)) as (_ & T' & t' & d & r & K1 & K2 & RT & Rt & Rd & Rr & Rq & HE & HS).
    rewrite EQ in *.
    assert (Ft : t' = t).
    { rewrite <- (Ht rho Hso (proj1 Hs)). symmetry. apply feval_eqp; [split; lia|]. rewrite lc_eval_var. exact K2. }
    subst t'. split; [lia|]. split; [lia|]. exists T', d, r. split; [|repeat split; auto; lia].
    rewrite <- (HT rho Hso (proj1 Hs)). unfold feval. rewrite lc_eval_var. symmetry. apply eqp_eq. exact K1.
  - intros (Rt & Rq0 & T' & d & r & ET & RT & Rd & Rr & HE & HS).
    assert (Rq : 0 <= q < 2 ^ 320).
    { split; auto. destruct HS as [H|[_ H]]; auto. eapply Z.lt_trans; [exact H|reflexivity]. }
    destruct (pwp_run wit (calculate_difficulty_update prev ts) s rho0 (calc_aux T' t d q r)
      (fun rho b => is_bn rho (md_of wit) b (digits64 5 q) /\ bparams b = params_new 64 5 /\
         value_of (2 ^ Z.of_nat 64) (digits64 5 q) = q) b s' G) as (rho & H1 & H2 & H3); auto.
    { intros rho Hso one. apply (calc_pwp rho one (md_of wit) prev ts T' t d); auto.
      - intros Hm. exact (md_of_not wit False Hm).
      - rewrite <- (lc_eval_var rho). rewrite (carries_for_eqp _ _ _ _ _ HT Hso one). rewrite <- ET. apply eqp_fmk.
      - rewrite <- (lc_eval_var rho). apply (carries_for_eqp _ _ _ _ _ Ht Hso one).
      - tauto. }
    exists rho. split; auto. split; [apply H2, same_on_refl|]. destruct (H3 rho (same_on_refl _ _)) as (K1 & K2 & K3).
    unfold int_of. rewrite K2. cbn [params_new limb_width]. rewrite (ev_canon _ _ _ (proj1 K1)); [exact K3|apply K1].
Qed.
End DiffExact.
