(** Exact conditions for the divisibility check (C85). *)
From Coq Require Import ZArith Bool List Lia ZifyBool ZifyNat.
From Verif.Model Require Import Base CS Bellpepper Util Poly Bignat.
From Verif.Spec Require Import Spec SpecExact.
From Verif.Proofs Require Import Field Arith Convert Limbs Wp Lc BitNum PolyP BoolP BignatEq BignatAlloc Group Carry Regroup Mult MultC PureOps MinBits Owp TopBits TopBignat1 TopBignat2 TopBignat3 Total TopTotal DecP ExactP TopExact.
Import ListNotations.
Local Open Scope Z_scope.

Section Divides.
Context {E : Env} {W : Wf E}.

Lemma sides_zero_convs M w A Q B : (1 <= length A)%nat -> (1 <= length Q)%nat ->
  sides_zero M w (convs A Q) B <->
  forall i, (common_limbs (group_size M w) (length A + length Q - 1) (length B) <= i)%nat -> conv A Q i = 0 /\ nth i B 0 = 0.
Proof.
  intros LA LQ. unfold sides_zero, common_limbs. rewrite convs_length.
  split; intros H i Hi; specialize (H i Hi); rewrite convs_nth in * by auto; exact H.
Qed.

Section Rho.
Context (rho : assignment) (one : rho ONE = 1).

Lemma verify_mult_zero_swp md a b prod A B P :
  let w := limb_width (bparams a) in
  let M := Z.max (mult_word a b) (max_word (bparams prod)) in
  ev rho (limbs a) A -> ev rho (limbs b) B -> ev rho (limbs prod) P ->
  in_word a A -> in_word b B -> in_word prod P ->
  n_limbs (bparams a) = length A -> n_limbs (bparams b) = length B ->
  Z.of_nat (length A + length B - 1) < modulus -> group_no_wrap M w ->
  swp md rho (verify_mult a b prod) (fun _ =>
    value_of (2 ^ Z.of_nat w) A * value_of (2 ^ Z.of_nat w) B = value_of (2 ^ Z.of_nat w) P /\ sides_zero M w (convs A B) P).
Proof.
  intros w M Ha Hb Hp HA HB HP Na Nb Hn HM. unfold verify_mult.
  do 2 sstep. intros w1 Hw1. unfold width_agreement in Hw1.
  destruct (Nat.eqb_spec (limb_width (bparams a)) (limb_width (bparams b))) as [W1|]; [|discriminate].
  do 2 sstep. intros w2 Hw2. unfold width_agreement in Hw2.
  destruct (Nat.eqb_spec (limb_width (bparams a)) (limb_width (bparams prod))) as [W2|]; [|discriminate].
  clear Hw1 Hw2 w1 w2. change (Z.of_nat _ * _ * _) with (mult_word a b). do 2 sstep.
  eapply swp_mono; [apply (alloc_product_swp rho md (to_poly a) (to_poly b) A B); auto|].
  intros pp Hpp. cbv beta in Hpp. fold (convs A B) in Hpp. sstep.
  eapply swp_mono; [eapply (regroup_swp rho one md (from_poly pp (limb_width (bparams b)) (mult_word a b)) prod (convs A B) P)|];
    rewrite ?from_poly_bparams; cbn [limbs max_word limb_width]; rewrite <- ?W1; auto.
  - unfold mult_word, product_word. rewrite Na, Nb. apply conv_list_bound; auto.
  - fold w. fold M. cbv beta. rewrite convs_value. intros _ (H1 & H2 & H3 & H4 & H5). split; auto.
Qed.

Lemma divides_zero_swp md a b A B :
  let w := limb_width (bparams a) in
  let X := 2 ^ Z.of_nat w in
  let M := Z.max (product_word (length A) (max_word (bparams a)) (length B) (X - 1)) (max_word (bparams b)) in
  ev rho (limbs a) A -> ev rho (limbs b) B -> in_word a A -> in_word b B -> (1 <= w)%nat ->
  n_limbs (bparams a) = length A -> n_limbs (bparams b) = length B ->
  Z.of_nat (length A + length B - 1) < modulus -> group_no_wrap M w ->
  swp md rho (divides a b) (fun _ => exists Q, length Q = length B /\ Forall (fun v => 0 <= v < X) Q /\
    value_of X A * value_of X Q = value_of X B /\ sides_zero M w (convs A Q) B).
Proof.
  intros w X M Ha Hb HA HB Hw Na Nb Hn HM. unfold divides.
  do 2 sstep. intros w1 Hw1. unfold width_agreement in Hw1.
  destruct (Nat.eqb_spec (limb_width (bparams a)) (limb_width (bparams b))) as [W1|]; [|discriminate].
  clear w1 Hw1. rewrite <- W1. fold w. do 2 sstep. apply alloc_from_nat_swp. intros q Hp Lp. rewrite Nb in *.
  assert (Pw : limb_width (bparams q) = w /\ max_word (bparams q) = 2 ^ Z.of_nat w - 1).
  { rewrite Hp. split; auto. change (max_word (params_new w (length B))) with (int_with_n_ones w). apply int_with_n_ones_spec. }
  destruct Pw as [Pw Pm].
  do 2 sstep. apply wf_range; [exact one|]. intros HR. rewrite Pw in HR.
  assert (LQ : length (wires rho (limbs q)) = length B) by (unfold wires; now rewrite map_length).
  rewrite width1_pos in HR by lia. sstep.
  eapply swp_mono; [eapply (verify_mult_zero_swp md a q b A (wires rho (limbs q)) B); eauto|].
  - apply ev_wires.
  - unfold in_word. rewrite Pm. eapply Forall_impl; [|exact HR]. cbv beta. lia.
  - rewrite Hp. cbn. congruence.
  - rewrite LQ. auto.
  - unfold mult_word. rewrite Na, Pm, Hp. cbn [n_limbs params_new]. exact HM.
  - cbv beta. fold w X. intros _ (H1 & H2). exists (wires rho (limbs q)). split; auto. split; auto. split; auto.
    unfold mult_word in H2. rewrite Na, Pm, Hp in H2. cbn [n_limbs params_new] in H2. exact H2.
Qed.

Lemma divides_dec a b A B Q :
  let w := limb_width (bparams a) in
  let X := 2 ^ Z.of_nat w in
  let M := Z.max (product_word (length A) (max_word (bparams a)) (length B) (X - 1)) (max_word (bparams b)) in
  limb_width (bparams b) = w ->
  is_bn rho Honest a A -> is_bn rho Honest b B -> in_word a A -> in_word b B ->
  (1 <= w)%nat -> (w < NUM_BITS)%nat -> (1 <= length A)%nat -> (1 <= length B)%nat ->
  length Q = length B -> Forall (fun v => 0 <= v < X) Q ->
  group_no_wrap M w -> group_room M w ->
  value_of X A * value_of X Q = value_of X B -> 0 < value_of X A ->
  dec rho (divides a b) (sides_zero M w (convs A Q) B) (fun _ => True).
Proof.
  intros w X M W2 Ha Hb WA WB Hw Hw' LA LB LQ HQ HN HG HV H0.
  unfold divides, width_agreement. rewrite W2. fold w. rewrite Nat.eqb_refl. cbn [lift bind].
  assert (Lb : n_limbs (bparams b) = length B) by apply Hb. rewrite Lb.
  eapply (range_dec rho one _ _ _ w (length B) Q); auto.
  { rewrite (is_bn_value _ _ _ _ Ha eq_refl), (is_bn_value _ _ _ _ Hb eq_refl), W2.
    fold w. fold X. cbn [grab rbind].
    unfold is_multiple_of, bigint_div. rewrite (proj2 (Z.eqb_neq _ 0)) by lia. rewrite <- HV.
    rewrite Z.mul_comm, Z.rem_mul, Z.quot_mul by lia. reflexivity. }
  intros q Hq Pq WQ. apply dec_ns.
  assert (HMM : Z.max (mult_word a q) (max_word (bparams b)) = M).
  { unfold mult_word, M. rewrite Pq, params_word. cbn [n_limbs params_new]. rewrite (proj1 (proj2 (proj2 Ha))). reflexivity. }
  pose proof (verify_mult_dec rho one a q b A Q B) as HVM. cbv zeta in HVM. fold w in HVM. rewrite HMM in HVM.
  eapply dec_iff; [|apply HVM; auto; try lia; rewrite Pq; reflexivity]. fold X. tauto.
Qed.
End Rho.

Lemma top_divides_verdict a b A B Q s :
  let w := limb_width (bparams a) in
  let X := 2 ^ Z.of_nat w in
  let M := Z.max (product_word (length A) (max_word (bparams a)) (length B) (X - 1)) (max_word (bparams b)) in
  let g := group_size M w in
  good s -> bignat_at s a A -> bignat_at s b B -> limb_width (bparams b) = w ->
  A <> [] -> B <> [] -> (1 <= w)%nat -> (w < NUM_BITS)%nat -> 0 < value_of X A ->
  length Q = length B -> Forall (fun v => 0 <= v < X) Q -> value_of X A * value_of X Q = value_of X B ->
  group_no_wrap M w -> group_room M w ->
  exists s', run true (divides a b) s = (Ok tt, s') /\
    (good s' <-> forall i, (common_limbs g (length A + length B - 1) (length B) <= i)%nat -> conv A Q i = 0 /\ nth i B 0 = 0).
Proof.
  intros w X M g G Ha Hb HW HA HB Hw HwN H0 LQ RQ HV HN HR. apply nonempty_length in HA, HB.
  destruct (dec_run (divides a b) s (sides_zero M w (convs A Q) B) (fun _ _ => True) G) as ([] & s' & H1 & _ & H3).
  { intros rho Hag one. destruct (bignat_at_is _ _ _ _ Ha Hag one) as [Ia Wa].
    destruct (bignat_at_is _ _ _ _ Hb Hag one) as [Ib Wb]. apply (divides_dec rho one a b A B Q); auto. }
  exists s'. split; auto. rewrite H3, sides_zero_convs, LQ by lia. reflexivity.
Qed.

Lemma top_divides_prover wit a b A B s u s' rho0 :
  let w := limb_width (bparams a) in
  let X := 2 ^ Z.of_nat w in
  let M := Z.max (product_word (length A) (max_word (bparams a)) (length B) (X - 1)) (max_word (bparams b)) in
  let g := group_size M w in
  good_for rho0 s -> bignat_for rho0 s a A -> bignat_for rho0 s b B ->
  run wit (divides a b) s = (Ok u, s') -> A <> [] -> B <> [] -> (1 <= w)%nat -> (w < NUM_BITS)%nat ->
  Z.of_nat (length A + length B) <= modulus -> group_no_wrap M w -> group_room M w ->
  ((exists rho, same_on s rho rho0 /\ sat rho s') <->
   exists Q, length Q = length B /\ Forall (fun v => 0 <= v < X) Q /\ value_of X A * value_of X Q = value_of X B /\
     forall i, (common_limbs g (length A + length B - 1) (length B) <= i)%nat -> conv A Q i = 0 /\ nth i B 0 = 0).
Proof.
  intros w X M g G Ha Hb Hr HA HB Hw HwN HL Hn Hroom.
  pose proof (same_on_refl s rho0) as R0. pose proof W as [_ W2 _ _].
  pose proof (bignat_for_is _ _ _ _ _ wit G Ha R0 (proj1 (G _ R0))) as [(_ & _ & NA & CA & _) _].
  pose proof (bignat_for_is _ _ _ _ _ wit G Hb R0 (proj1 (G _ R0))) as [(_ & _ & NB & CB & _) _].
  apply nonempty_length in HA, HB. split.
  - intros (rho & Hso & Hs).
    destruct (bignat_for_is _ _ _ _ _ wit G Ha Hso (proj1 Hs)) as [(Ea & _) Wa].
    destruct (bignat_for_is _ _ _ _ _ wit G Hb Hso (proj1 Hs)) as [(Eb & _) Wb].
    pose proof (swp_run_any _ _ _ _ _ _ _ Hr Hs (divides_zero_swp rho (proj1 Hs) Any a b A B Ea Eb Wa Wb Hw NA NB ltac:(lia) Hn)) as (Q & LQ & RQ & HV & HZ).
    exists Q. split; auto. split; auto. split; auto.
    intros i Hi. apply (proj1 (sides_zero_convs M w A Q B HA ltac:(lia)) HZ). rewrite LQ. exact Hi.
  - intros (Q & LQ & RQ & HV & HZ). assert (HZ' : sides_zero M w (convs A Q) B).
    { apply (proj2 (sides_zero_convs M w A Q B HA ltac:(lia))). rewrite LQ. exact HZ. }
    assert (Hwd : limb_width (bparams b) = w).
    { destruct (Nat.eqb_spec (limb_width (bparams a)) (limb_width (bparams b))) as [|D]; auto.
      exfalso. apply Nat.eqb_neq in D. unfold divides, width_agreement in Hr. rewrite D in Hr. discriminate. }
    destruct (awp_run wit (divides a b) s rho0 (range_aux w Q ++ convs A Q ++ regroup_aux M w (convs A Q) B) (fun _ _ => True) u s' G)
      as (rho & H1 & H2 & _); [|exact Hr|exists rho; split; [exact H1|apply H2, same_on_refl]].
    intros rho Hso one.
    destruct (bignat_for_is _ _ _ _ _ wit G Ha Hso one) as [Ia Wa].
    destruct (bignat_for_is _ _ _ _ _ wit G Hb Hso one) as [Ib Wb].
    apply (divides_awp rho one (md_of wit) a b A B Q); auto. apply md_of_not.
Qed.
End Divides.
