(** Final forms for the difficulty update and the hash comparison. *)
From Coq Require Import ZArith Znumtheory Bool String List Lia Setoid Morphisms ZifyBool ZifyNat.
From Verif.Model Require Import Base CS Bellpepper Util Poly Bignat Ints Median Difficulty.
From Verif.Spec Require Import Spec.
From Verif.Proofs Require Import Field Arith Convert Limbs Wp Lc BitNum PolyP BoolP BignatEq BignatAlloc Group Carry Regroup
  Mult MultC TopBignat1 TopBignat2 Owp Shp Room TopBignat3 TopBignat4 Pwp MedianP MedianV TopMedian DifficultyP DifficultyV.
Import ListNotations.
Local Open Scope string_scope.
Local Open Scope Z_scope.
Local Open Scope list_scope.

Section Top.
Context {E : Env} {W : Wf E}.

Lemma calc_word_eq : calc_word = (2 ^ 64 - 1) * 2 ^ 128.
Proof. reflexivity. Qed.
Lemma verify_word_eq : verify_word = (2 ^ 64 - 1) * (2 ^ 65 - 1).
Proof. reflexivity. Qed.

(** ** calculate_difficulty_update *)
Lemma top_calculate prev ts T t s :
  good s -> an_at s prev T -> an_at s ts t -> 302400 < t < 4838400 -> T * t / (2016 * 10 * 60) < 2 ^ 256 ->
  (194 <= CAPACITY <= 255)%nat -> exact_carries ((2 ^ 64 - 1) * 2 ^ 128) 64 ->
  exists b s' vs, run true (calculate_difficulty_update prev ts) s = (Ok b, s') /\ good s' /\ bignat_at s' b vs /\
    limb_width (bparams b) = 64%nat /\ List.length (limbs b) = 5%nat /\ value b = Some (T * t / (2016 * 10 * 60)).
Proof.
  intros G HT Ht Rt HS HC HX. rewrite <- calc_word_eq in HX.
  destruct (hwp_run (calculate_difficulty_update prev ts) s (fun rho b => is_bn rho Honest b (digits64 5 (T * t / two_weeks)) /\
     in_word b (digits64 5 (T * t / two_weeks)) /\ bparams b = params_new 64 5 /\
     value_of (2 ^ Z.of_nat 64) (digits64 5 (T * t / two_weeks)) = T * t / two_weeks) G) as (b & s' & Hr & Hg & _ & HQ).
  { intros rho Hag one. apply (calc_hwp rho one prev ts T t HC HX (an_at_is _ _ _ _ HT Hag one) (an_at_is _ _ _ _ Ht Hag one) Rt HS). }
  destruct (HQ _ (agree_asg s')) as (K1 & K2 & K3 & K4).
  exists b, s', (digits64 5 (T * t / two_weeks)). split; auto. split; auto. split; [|split; [|split]].
  - apply is_bignat_at; auto. intros rho Hrho. apply (HQ _ Hrho).
  - now rewrite K3.
  - rewrite (ev_length _ _ _ (proj1 K1)). reflexivity.
  - rewrite (is_bn_value _ _ _ _ K1 eq_refl), K3. cbn [params_new limb_width]. rewrite K4. reflexivity.
Qed.

Lemma top_calculate_panics prev ts t s : good s -> an_at s ts t -> 2 ^ 64 <= modulus ->
  ~ (302400 < t < 4838400) -> fst (run true (calculate_difficulty_update prev ts) s) = Panic.
Proof.
  intros G Ht HP Rt. apply (owp_result _ s (fun r => r = Panic) G). intros rho Hag one.
  apply (calc_panics rho one prev ts t); auto; [|lia|exact (an_at_is _ _ _ _ Ht Hag one)].
  apply num_bits_above. change (Z.of_nat 32) with 32. lia.
Qed.
Lemma top_calculate_sound wit prev ts s b s' rho :
  run wit (calculate_difficulty_update prev ts) s = (Ok b, s') -> sat rho s' ->
  (194 <= CAPACITY <= 255)%nat -> exact_carries ((2 ^ 64 - 1) * 2 ^ 128) 64 ->
  limb_width (bparams b) = 64%nat /\ Forall (fun v => 0 <= v < 2 ^ 64) (wires rho (limbs b)) /\
  exists T d r, T mod modulus = feval rho (lc_var (an_var prev)) /\
    0 <= T < 2 ^ 256 /\ 0 <= d < 2 ^ 128 /\ 0 <= r < 2 ^ 64 /\ feval rho (lc_var (an_var ts)) < 2 ^ 64 /\
    T * feval rho (lc_var (an_var ts)) = int_of rho b * d + r.
Proof.
  intros Hr Hs HC HX. rewrite <- calc_word_eq in HX.
  destruct (swp_run_any _ _ _ _ _ _ _ Hr Hs (calc_swp rho (proj1 Hs) Any prev ts HC HX)) as (H1 & H2 & T & t & d & r & K1 & K2 & RT & Rt & Rd & Rr & HE).
  split; auto. split; [exact H2|].
  assert (HN : (194 < NUM_BITS)%nat) by (unfold CAPACITY in HC; lia).
  assert (HP : 2 ^ 194 <= modulus) by (apply (width_lt_modulus 194); auto).
  assert (Ft : feval rho (lc_var (an_var ts)) = t).
  { apply feval_eqp; [split; lia|]. rewrite lc_eval_var. exact K2. }
  rewrite Ft. exists T, d, r. split; [|repeat split; auto; lia].
  unfold feval. rewrite lc_eval_var. symmetry. apply eqp_eq. exact K1.
Qed.

Lemma top_calculate_any prev ts T t d s b s' :
  good s -> an_at s prev T -> an_at s ts t -> run true (calculate_difficulty_update prev ts) s = (Ok b, s') ->
  0 < d <= 2 ^ 64 -> T * t / d < 2 ^ 256 ->
  (194 <= CAPACITY <= 255)%nat -> exact_carries ((2 ^ 64 - 1) * 2 ^ 128) 64 ->
  exists rho, same_on s rho (asg s) /\ sat rho s' /\ int_of rho b = T * t / d.
Proof.
  intros G HT Ht Hr Rd HS HC HX. rewrite <- calc_word_eq in HX.
  assert (HN : (194 < NUM_BITS)%nat) by (unfold CAPACITY in HC; lia).
  assert (HP : 2 ^ 194 <= modulus) by (apply (width_lt_modulus 194); auto).
  assert (HPU : modulus < 2 ^ 256).
  { pose proof modulus_bits as [_ B]. eapply Z.lt_le_trans; [exact B|]. apply Z.pow_le_mono_r; unfold CAPACITY in HC; lia. }
  assert (CT : canon T) by apply HT. assert (Ct : canon t) by apply Ht.
  assert (Rt : 302400 < t < 4838400).
  { destruct (Z.lt_ge_cases 302400 t); [destruct (Z.lt_ge_cases t 4838400); [auto|]|];
    (exfalso; pose proof (top_calculate_panics prev ts t s G Ht ltac:(lia) ltac:(lia)) as C; rewrite Hr in C; discriminate C). }
  destruct CT as [CT1 CT2]. pose proof (Z.mod_pos_bound (T * t) d ltac:(lia)) as HM.
  assert (HD : T * t = (T * t / d) * d + T * t mod d) by (pose proof (Z.div_mod (T * t) d ltac:(lia)); lia).
  destruct (pwp_run true (calculate_difficulty_update prev ts) s (asg s) (calc_aux T t d (T * t / d) (T * t mod d))
    (fun rho b => is_bn rho Any b (digits64 5 (T * t / d)) /\ bparams b = params_new 64 5 /\
       value_of (2 ^ Z.of_nat 64) (digits64 5 (T * t / d)) = T * t / d) b s' (TopBignat3.good_good_for s G)) as (rho & H1 & H2 & H3); auto.
  { intros rho Hs one. cbn [md_of].
    assert (Hag : agree s rho) by (destruct Hs as [Q1 Q2], (agree_asg s) as [Q3 Q4]; split; intros n Hn; [rewrite Q1|rewrite Q2]; auto).
    apply (calc_pwp rho one Any prev ts T t d); auto; try lia; try discriminate.
    - apply (an_at_is _ _ _ _ HT Hag one).
    - apply (an_at_is _ _ _ _ Ht Hag one).
    - split; [apply Z.div_pos; lia|]. eapply Z.lt_trans; [exact HS|reflexivity]. }
  exists rho. split; auto. split; [apply H2, same_on_refl|]. destruct (H3 rho (same_on_refl _ _)) as (K1 & K2 & K3).
  unfold int_of. rewrite K2. cbn [params_new limb_width]. rewrite (ev_canon _ _ _ (proj1 K1)); [exact K3|apply K1].
Qed.

(** ** verify_difficulty_update *)
Lemma nth_halves cu cl q : 0 <= cu < 2 ^ 128 -> 0 <= cl < 2 ^ 128 -> 0 <= q < 2 ^ 384 ->
  (forall i, nth i (halves cu cl) 0 = nth i (digits64 6 q) 0) <-> cu * 2 ^ 128 + cl = q.
Proof.
  intros Hu Hl Hq. destruct (halves_facts cu cl Hu Hl) as (A1 & A2 & A3). destruct (digits_facts 64 6 q Hq) as (B1 & B2 & B3).
  fold (digits64 6 q) in *.
  assert (C1 : List.length (halves cu cl ++ [0; 0]) = List.length (digits64 6 q)) by (rewrite app_length, A1, B1; reflexivity).
  assert (C2 : value_of (2 ^ Z.of_nat 64) (halves cu cl ++ [0; 0]) = cu * 2 ^ 128 + cl).
  { rewrite value_of_app, A3. cbn [value_of]. ring. }
  assert (C3 : forall i, nth i (halves cu cl ++ [0; 0]) 0 = nth i (halves cu cl) 0).
  { intros i. destruct (Nat.lt_ge_cases i 4) as [H|H].
    - apply app_nth1. now rewrite A1.
    - rewrite app_nth2 by (rewrite A1; auto). rewrite A1. rewrite (nth_overflow (halves cu cl)) by (rewrite A1; auto).
      destruct (i - 4)%nat as [|[|[|]]]; reflexivity. }
  split.
  - intros H. assert (HE : halves cu cl ++ [0; 0] = digits64 6 q).
    { apply (nth_ext _ _ 0 0); auto. intros i _. now rewrite C3. }
    rewrite <- C2, HE. exact B3.
  - intros H i. rewrite <- C3. f_equal. apply (value_of_inj (2 ^ Z.of_nat 64)); auto using pow2_pos.
    + apply Forall_app. split; auto. repeat constructor; lia.
    + rewrite C2, B3. exact H.
Qed.

Lemma run_bind_ok {A B} wit (m : prog A) (f : A -> prog B) s a s1 : run wit m s = (Ok a, s1) -> run wit (bind m f) s = run wit (f a) s1.
Proof. intros H. now rewrite run_bind, H. Qed.
Lemma sat_pop rho s : sat rho (pop_ns s) <-> sat rho s.
Proof. reflexivity. Qed.

Lemma run_unwrap_ns {A} wit nm (m : prog A) s a s1 : run wit m (push_ns nm s) = (Ok a, s1) ->
  run wit (unwrap_prog (ns nm m)) s = (Ok a, pop_ns s1).
Proof.
  intros H. assert (K : run wit (ns nm m) s = (Ok a, pop_ns s1)).
  { cbn [ns run]. rewrite (run_bind_ok _ _ _ _ _ _ H). reflexivity. }
  clear H. revert K. generalize (ns nm m) as p. intros p. revert s a. generalize (pop_ns s1). clear. intros s1 s a. revert s.
  induction p as [x|e| |inp nm w k IH|nm c k IH|nm k IH|k IH]; intros s H; cbn [run unwrap_prog] in *; auto; try discriminate.
  destruct wit; [destruct w; cbn [unwrap_res] in *; try discriminate|]; auto.
Qed.

Lemma top_verify_iff cu cl pu pl t s :
  good s -> 0 <= cu < 2 ^ 128 -> 0 <= cl < 2 ^ 128 -> 0 <= pu < 2 ^ 128 -> 0 <= pl < 2 ^ 128 -> 302400 < t < 4838400 ->
  (194 <= CAPACITY <= 255)%nat -> exact_carries ((2 ^ 64 - 1) * (2 ^ 65 - 1)) 64 ->
  exists s', run true (verify_difficulty_update cu cl pu pl t) s = (Ok tt, s') /\
    (sat (asg s') s' <-> cu * 2 ^ 128 + cl = (pu * 2 ^ 128 + pl) * t / (2016 * 10 * 60)).
Proof.
  intros G Rcu Rcl Rpu Rpl Rt HC HX. rewrite <- verify_word_eq in HX.
  set (q := (pu * 2 ^ 128 + pl) * t / two_weeks).
  destruct (hwp_run (verify_prefix cu cl pu pl t) s (fun rho p => is_bn rho Honest (fst p) (halves cu cl) /\ bparams (fst p) = params_new 64 4 /\
    is_bn rho Honest (snd p) (digits64 6 q) /\ bparams (snd p) = params_new 64 6 /\ value_of (2 ^ Z.of_nat 64) (digits64 6 q) = q) G)
    as ([x y] & s1 & Hr & Hg & _ & HQ).
  { intros rho Hag one. apply (verify_prefix_hwp rho one cu cl pu pl t); auto. }
  cbn [fst snd] in HQ. destruct (HQ _ (agree_asg s1)) as (_ & Px & _ & Py & _).
  destruct (top_equal_iff true x y (push_ns (Nm "computation equal to next target") s1)) as (s2 & Hr2 & Hiff); [now rewrite Px, Py|].
  exists (pop_ns s2). rewrite verify_prefix_run. rewrite (run_bind_ok _ _ _ _ _ _ Hr). split; [now apply run_unwrap_ns|].
  assert (Ha : agree s1 (asg (pop_ns s2))).
  { assert (K : agree (push_ns (Nm "computation equal to next target") s1) (asg s2)) by (eapply run_agree; [exact Hr2|reflexivity|apply agree_asg]). exact K. }
  change (asg (pop_ns s2)) with (asg s2) in *. rewrite sat_pop, Hiff. destruct (HQ _ Ha) as (Ix & _ & Iy & _ & Hv).
  rewrite (ev_canon _ _ _ (proj1 Ix)), (ev_canon _ _ _ (proj1 Iy)) by (apply Ix || apply Iy).
  rewrite nth_halves; auto.
  - split; [intros [_ H]; exact H|]. intros H. split; [|exact H]. exact (Hg _ Ha).
  - assert (H2w : two_weeks = 1209600) by reflexivity. unfold q. split; [apply Z.div_pos; lia|]. apply Z.div_lt_upper_bound; [lia|]. rewrite H2w. nia.
Qed.

Lemma top_verify_panics cu cl pu pl t s : good s -> 2 ^ 64 <= modulus -> 0 <= t < 2 ^ 64 -> ~ (302400 < t < 4838400) ->
  fst (run true (verify_difficulty_update cu cl pu pl t) s) = Panic.
Proof.
  intros G HP Ht Rt. apply (owp_result _ s (fun r => r = Panic) G). intros rho Hag one. apply verify_panics; auto.
  apply num_bits_above. change (Z.of_nat 32) with 32. lia.
Qed.

Lemma top_verify_unenforced cu cl pu pl t s s' rho0 :
  good_for rho0 s -> run true (verify_difficulty_update cu cl pu pl t) s = (Ok tt, s') ->
  (194 <= CAPACITY <= 255)%nat -> exact_carries ((2 ^ 64 - 1) * (2 ^ 65 - 1)) 64 ->
  exists rho, same_on s rho rho0 /\ sat rho s'.
Proof.
  intros G Hr HC HX. rewrite <- verify_word_eq in HX. rewrite verify_prefix_run in Hr.
  destruct (run true (verify_prefix cu cl pu pl t) s) as [[[x y]|?|] s1] eqn:H1; rewrite run_bind, H1 in Hr; try discriminate Hr.
  destruct (pwp_run true (verify_prefix cu cl pu pl t) s rho0 zero_aux (fun rho p => ev rho (limbs (fst p)) (halves 0 0) /\ ev rho (limbs (snd p)) (digits64 6 0) /\
    limb_width (bparams (fst p)) = 64%nat /\ limb_width (bparams (snd p)) = 64%nat) (x, y) s1 G) as (rho & K1 & K2 & K3); auto.
  { intros rho Hs one. cbn [md_of]. apply (verify_prefix_zero rho one cu cl pu pl t HC HX). }
  cbn [fst snd] in K3. destruct (K3 rho (same_on_refl _ _)) as (Ex & Ey & Wx & Wy).
  exists rho. split; auto.
  destruct (top_equal_iff true x y (push_ns (Nm "computation equal to next target") s1)) as (s2 & Hr2 & Hiff); [now rewrite Wx, Wy|].
  cbn [fst snd] in Hr. rewrite (run_unwrap_ns _ _ _ _ _ _ Hr2) in Hr. injection Hr as <-. apply sat_pop, Hiff.
  split; [exact (K2 rho (same_on_refl _ _))|]. intros i.
  assert (Cz : canon 0) by apply canon_0.
  assert (D6 : digits64 6 0 = [0; 0; 0; 0; 0; 0]) by reflexivity. assert (D4 : halves 0 0 = [0; 0; 0; 0]) by reflexivity.
  rewrite (ev_canon _ _ _ Ex), (ev_canon _ _ _ Ey).
  - rewrite D4, D6. do 7 (destruct i; [reflexivity|]). reflexivity.
  - rewrite D6. repeat constructor; apply Cz.
  - rewrite D4. repeat constructor; apply Cz.
Qed.

(** ** verify_current_hash *)
Definition lt_near (x y : Z) : bool := (x <? y) && (y - x <=? 2 ^ 127).

Lemma cmp_126 X Y : 0 <= X < 2 ^ 128 -> 0 <= Y < 2 ^ 128 -> 2 ^ 130 < modulus ->
  (fsub (fadd (fmk X) (fmk (2 ^ (Z.of_nat 126 + 1)))) (fmk Y) <? 2 ^ Z.of_nat (1 + 126)) = lt_near X Y.
Proof.
  intros HX HY HP. unfold lt_near. destruct (Z.le_gt_cases Y (X + 2 ^ 127)) as [H|H].
  - rewrite cmp_int; change (Z.of_nat 126 + 1) with 127; [|lia]. replace (Y - X <=? 2 ^ 127) with true by lia. now rewrite andb_true_r.
  - assert (HE : fsub (fadd (fmk X) (fmk (2 ^ 127))) (fmk Y) = X + 2 ^ 127 - Y + modulus).
    { apply canon_eqp; [apply fsub_canon|split; lia|]. unfold fsub, fadd. rewrite !eqp_fmk.
      rewrite eqp_eq. replace (X + 2 ^ 127 - Y + modulus) with (X + 2 ^ 127 - Y + 1 * modulus) by ring. unfold fmk. now rewrite Z.mod_add by lia. }
    change (Z.of_nat 126 + 1) with 127. rewrite HE. change (Z.of_nat (1 + 126)) with 127. lia.
Qed.

Lemma top_hash_exact hu hl tu tl s :
  good s -> 0 <= hu < 2 ^ 128 -> 0 <= hl < 2 ^ 128 -> 0 <= tu < 2 ^ 128 -> 0 <= tl < 2 ^ 128 -> 2 ^ 130 < modulus ->
  exists r s', run true (verify_current_hash hu hl tu tl) s = (Ok r, s') /\ good s' /\
    boolean_at s' r (lt_near hu tu || ((hu =? tu) && lt_near hl tl)).
Proof.
  intros G Rhu Rhl Rtu Rtl HP.
  assert (HN : (126 < NUM_BITS)%nat). { apply num_bits_above. change (2 ^ Z.of_nat 126) with (2 ^ 126). lia. }
  destruct (hwp_run (verify_current_hash hu hl tu tl) s (fun rho r => is_bool rho r (lt_near hu tu || ((hu =? tu) && lt_near hl tl))) G) as (r & s' & Hr & Hg & _ & HQ).
  { intros rho Hag one. unfold verify_current_hash.
    assert (HA : forall nm v, hwp rho (an_u nm (Ok (from_u128 v))) (fun a => is_an rho a (fmk v))) by (intros; apply an_u_hwp).
    hstep. eapply hwp_mono; [apply HA|]. intros h_u I1. hstep. eapply hwp_mono; [apply HA|]. intros h_l I2.
    hstep. eapply hwp_mono; [apply HA|]. intros t_u I3. hstep. eapply hwp_mono; [apply HA|]. intros t_l I4.
    do 3 hstep. eapply hwp_mono; [apply (less_than_hwp rho one _ _ 126 _ _ _ I1 I3 (zero_shift_low 126 ltac:(lia)) HN)|].
    cbv beta. intros b1 B1. rewrite cmp_126 in B1 by auto.
    do 3 hstep. eapply hwp_mono; [apply (equals_hwp rho one _ _ _ _ I1 I3)|]. cbv beta. intros b2 B2.
    rewrite !fmk_id in B2 by (split; lia).
    do 3 hstep. eapply hwp_mono; [apply (less_than_hwp rho one _ _ 126 _ _ _ I2 I4 (zero_shift_low 126 ltac:(lia)) HN)|].
    cbv beta. intros b3 B3. rewrite cmp_126 in B3 by auto.
    do 3 hstep. eapply hwp_mono; [apply (bool_and_hwp rho one _ _ _ _ B2 B3)|]. cbv beta. intros b4 B4.
    hstep. unfold bool_or. hstep. hstep.
    eapply hwp_mono; [apply (bool_and_hwp rho one _ _ _ _ (bool_not_is rho one _ _ B1) (bool_not_is rho one _ _ B4))|].
    cbv beta. intros b5 B5. hstep. apply (bool_not_is rho one) in B5. rewrite negb_andb, !negb_involutive in B5. exact B5. }
  exists r, s'. split; auto. split; auto. apply is_boolean_at. exact HQ.
Qed.

Lemma top_hash_near hu hl tu tl s :
  good s -> 0 <= hu < 2 ^ 128 -> 0 <= hl < 2 ^ 128 -> 0 <= tu < 2 ^ 128 -> 0 <= tl < 2 ^ 128 -> 2 ^ 130 < modulus ->
  tu - hu <= 2 ^ 127 -> (hu = tu -> tl - hl <= 2 ^ 127) ->
  exists r s', run true (verify_current_hash hu hl tu tl) s = (Ok r, s') /\ good s' /\
    boolean_at s' r (hu * 2 ^ 128 + hl <? tu * 2 ^ 128 + tl).
Proof.
  intros G R1 R2 R3 R4 HP D1 D2. destruct (top_hash_exact hu hl tu tl s G R1 R2 R3 R4 HP) as (r & s' & H1 & H2 & H3).
  exists r, s'. split; auto. split; auto.
  replace (hu * 2 ^ 128 + hl <? tu * 2 ^ 128 + tl) with (lt_near hu tu || ((hu =? tu) && lt_near hl tl)); auto.
  unfold lt_near. lia.
Qed.
Lemma top_hash_one_sided hu hl tu tl s r s' : good s -> 0 <= hu < 2 ^ 128 -> 0 <= hl < 2 ^ 128 -> 0 <= tu < 2 ^ 128 -> 0 <= tl < 2 ^ 128 -> 2 ^ 130 < modulus ->
  run true (verify_current_hash hu hl tu tl) s = (Ok r, s') -> bool_val r = Some true -> hu * 2 ^ 128 + hl < tu * 2 ^ 128 + tl.
Proof.
  intros G R1 R2 R3 R4 HP Hr Hv. destruct (top_hash_exact hu hl tu tl s G R1 R2 R3 R4 HP) as (r' & s'' & H1 & H2 & H3 & _).
  assert (r' = r) by congruence. subst r'. rewrite Hv in H3.
  assert (K : lt_near hu tu || ((hu =? tu) && lt_near hl tl) = true) by congruence. unfold lt_near in K. lia.
Qed.
Lemma top_hash_wrong hu hl tu tl s : good s -> 0 <= hu -> 0 <= hl < 2 ^ 128 -> tu < 2 ^ 128 -> 0 <= tl < 2 ^ 128 -> 2 ^ 130 < modulus ->
  2 ^ 127 < tu - hu ->
  hu * 2 ^ 128 + hl < tu * 2 ^ 128 + tl /\
  exists r s', run true (verify_current_hash hu hl tu tl) s = (Ok r, s') /\ good s' /\ boolean_at s' r false.
Proof.
  intros G R1 R2 R3 R4 HP D. split; [lia|].
  destruct (top_hash_exact hu hl tu tl s G ltac:(lia) R2 ltac:(lia) R4 HP) as (r & s' & H1 & H2 & H3).
  exists r, s'. split; auto. split; auto.
  replace (lt_near hu tu || ((hu =? tu) && lt_near hl tl)) with false in H3; auto. unfold lt_near. lia.
Qed.

End Top.
