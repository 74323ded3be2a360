(** [verify_difficulty_update]: honest runs, panics, and the assignment of zeros. *)
From Coq Require Import ZArith Znumtheory Bool String List Lia Setoid Morphisms ZifyBool ZifyNat.
From Verif.Model Require Import Base CS Bellpepper Util Poly Bignat Ints Median Difficulty.
From Verif.Spec Require Import Spec.
From Verif.Proofs Require Import Field Arith Convert Limbs Wp Lc BitNum PolyP BoolP BignatEq BignatAlloc Group Carry Regroup
  Mult MultC TopBignat1 TopBignat2 Owp Room TopBignat4 Pwp MedianP MedianV DifficultyP.
Import ListNotations.
Local Open Scope string_scope.
Local Open Scope Z_scope.
Local Open Scope list_scope.

Section Difficulty.
Context {E : Env} {W : Wf E}.

(** Everything before the final [equal]. *)
Definition verify_prefix (cur_u cur_l prev_u prev_l sum_ts : Z) : prog (bignat * bignat) :=
  let! t_sum_num := num_u "Sum of 2016 blocks timestamps" (Ok (from_u64 sum_ts)) in
  let! t_sum := bignat_u "BigNat t_sum" t_sum_num 64 2 in
  let! target_upper := num_u "Most significant 128 bits of target" (Ok (from_u128 cur_u)) in
  let! target_lower := num_u "Least significant 128 bits of target" (Ok (from_u128 cur_l)) in
  let! prev_tar_upper := num_u "Most significant 128 bits of last target" (Ok (from_u128 prev_u)) in
  let! prev_tar_lower := num_u "Least significant 128 bits of last target" (Ok (from_u128 prev_l)) in
  let! tar_u := bignat_u "Upper target in bignat" target_upper 64 2 in
  let! tar_l := bignat_u "Lower target in bignat" target_lower 64 2 in
  let! target := lift (unwrap_res (concat tar_u tar_l)) in
  let! ptar_u := bignat_u "Upper target before update in bignat" prev_tar_upper 64 2 in
  let! ptar_l := bignat_u "Lower target before update in bignat" prev_tar_lower 64 2 in
  let! prev_target := lift (unwrap_res (concat ptar_u ptar_l)) in
  let! fe_t_sum := an_u "Timestamps sum" (Ok (from_u64 sum_ts)) in
  let! t_sum_lower := an_u "Lower acceptable t_sum" (Ok (from_u64 (two_weeks / 4))) in
  let! t_sum_upper := an_u "Upper acceptable t_sum" (Ok (from_u64 (two_weeks * 4))) in
  let! res_lower := lt_u "res_lower" t_sum_lower fe_t_sum 32 in
  let! res_upper := lt_u "res_upper" fe_t_sum t_sum_upper 32 in
  let! _ := assert (res_lower && res_upper) in
  verify_tail target prev_target t_sum.

Lemma verify_prefix_run wit cu cl pu pl ts s :
  run wit (verify_difficulty_update cu cl pu pl ts) s =
  run wit (bind (verify_prefix cu cl pu pl ts) (fun p => unwrap_prog (ns (Nm "computation equal to next target") (equal (fst p) (snd p))))) s.
Proof.
  unfold verify_difficulty_update, verify_prefix, verify_tail.
  repeat (rewrite run_assoc; apply run_ext; clear s; intros ? s; try match goal with q : (_ * _)%type |- _ => destruct q end).
  reflexivity.
Qed.

Section Rho.
Variable rho : assignment.
Hypothesis one : rho ONE = 1.

Lemma num_u_hwp nm v : hwp rho (num_u nm (Ok (from_u64 v))) (fun n => lc_eval rho (n_lc n) = fmk v /\ n_val n = Some (fmk v)).
Proof.
  eapply hwp_awp, awp_mono; [apply (num_u_awp rho Honest nm _ (fmk v)); auto using fmk_canon|]. cbv beta. tauto.
Qed.
Lemma half_hwp nm n v : 0 <= v < 2 ^ 128 -> 2 ^ 128 <= modulus -> (64 < NUM_BITS)%nat ->
  lc_eval rho (n_lc n) = fmk v /\ n_val n = Some (fmk v) ->
  hwp rho (bignat_u nm n 64 2) (fun b => is_bn rho Honest b (digits64 2 v) /\ bparams b = params_new 64 2 /\ in_word b (digits64 2 v)).
Proof.
  intros Rv HP HN [H1 H2]. assert (Cv : canon v) by (split; lia). rewrite fmk_id in H1, H2 by auto.
  unfold bignat_u. do 2 hstep. eapply hwp_awp, awp_mono; [apply (from_num_int_awp rho one Honest n 64 2 v v); auto|].
  - now rewrite H1.
  - reflexivity.
  - cbv beta. fold (digits64 2 v). tauto.
Qed.
Lemma honest_some b D : is_bn rho Honest b D -> limb_values b <> None.
Proof. intros (_ & _ & _ & _ & H). destruct (H eq_refl) as [-> _]. discriminate. Qed.

Lemma verify_prefix_hwp cu cl pu pl t : (194 <= CAPACITY <= 255)%nat -> exact_carries verify_word 64 ->
  0 <= cu < 2 ^ 128 -> 0 <= cl < 2 ^ 128 -> 0 <= pu < 2 ^ 128 -> 0 <= pl < 2 ^ 128 -> 302400 < t < 4838400 ->
  let q := (pu * 2 ^ 128 + pl) * t / two_weeks in
  hwp rho (verify_prefix cu cl pu pl t) (fun p => is_bn rho Honest (fst p) (halves cu cl) /\ bparams (fst p) = params_new 64 4 /\
    is_bn rho Honest (snd p) (digits64 6 q) /\ bparams (snd p) = params_new 64 6 /\ value_of (2 ^ Z.of_nat 64) (digits64 6 q) = q).
Proof.
  intros HC HX Rcu Rcl Rpu Rpl Rt q.
  assert (HN : (194 < NUM_BITS)%nat) by (unfold CAPACITY in HC; lia).
  assert (HP : 2 ^ 194 <= modulus) by (apply (width_lt_modulus 194); auto).
  assert (H128 : 2 ^ 128 <= modulus) by lia. assert (H64 : (64 < NUM_BITS)%nat) by lia. assert (Rt' : 0 <= t < 2 ^ 128) by lia.
  set (T := pu * 2 ^ 128 + pl) in *.
  assert (RT : 0 <= T < 2 ^ 256) by (unfold T; lia).
  assert (HD : T * t = q * two_weeks + T * t mod two_weeks).
  { unfold q. pose proof (Z.div_mod (T * t) two_weeks ltac:(discriminate)). lia. }
  pose proof (Z.mod_pos_bound (T * t) two_weeks ltac:(reflexivity)) as HM.
  unfold verify_prefix. hstep. eapply hwp_mono; [apply num_u_hwp|]. intros n1 N1.
  hstep. eapply hwp_mono; [apply (half_hwp _ _ _ Rt' H128 H64 N1)|]. cbv beta. intros t_sum (S1 & S2 & S3).
  hstep. eapply hwp_mono; [apply num_u_hwp|]. intros n2 N2.
  hstep. eapply hwp_mono; [apply num_u_hwp|]. intros n3 N3.
  hstep. eapply hwp_mono; [apply num_u_hwp|]. intros n4 N4.
  hstep. eapply hwp_mono; [apply num_u_hwp|]. intros n5 N5.
  hstep. eapply hwp_mono; [apply (half_hwp _ _ _ Rcu H128 H64 N2)|]. cbv beta. intros tar_u (A1 & A2 & A3).
  hstep. eapply hwp_mono; [apply (half_hwp _ _ _ Rcl H128 H64 N3)|]. cbv beta. intros tar_l (B1 & B2 & B3).
  destruct (concat_is rho Honest tar_u tar_l _ _ A2 B2 A1 B1 A3 B3 (or_introl (honest_some _ _ A1))) as (target & HT & T1 & T2 & T3).
  hstep. hstep; [rewrite HT; reflexivity|].
  hstep. eapply hwp_mono; [apply (half_hwp _ _ _ Rpu H128 H64 N4)|]. cbv beta. intros ptar_u (C1 & C2 & C3).
  hstep. eapply hwp_mono; [apply (half_hwp _ _ _ Rpl H128 H64 N5)|]. cbv beta. intros ptar_l (D1 & D2 & D3).
  destruct (concat_is rho Honest ptar_u ptar_l _ _ C2 D2 C1 D1 C3 D3 (or_introl (honest_some _ _ C1))) as (ptarget & HT' & P1 & P2 & P3).
  hstep. hstep; [rewrite HT'; reflexivity|].
  hstep. eapply hwp_mono; [apply an_u_hwp|]. intros fe Hfe. rewrite fmk_id in Hfe by (split; lia).
  hstep. eapply hwp_mono; [apply an_u_hwp|]. intros lo Hlo.
  hstep. eapply hwp_mono; [apply an_u_hwp|]. intros up Hup.
  hstep. eapply hwp_mono; [apply (lt_u_hwp _ one _ _ _ _ _ Hlo Hfe); lia|]. cbv beta. intros r1 Hr1.
  hstep. eapply hwp_mono; [apply (lt_u_hwp _ one _ _ _ _ _ Hfe Hup); lia|]. cbv beta. intros r2 Hr2.
  change (two_weeks / 4) with 302400 in Hr1. change (two_weeks * 4) with 4838400 in Hr2.
  assert (HB : r1 && r2 = true). { rewrite Hr1, Hr2, span_check by (try split; lia). lia. }
  rewrite HB. change (hwp rho (verify_tail target ptarget t_sum) (fun p => is_bn rho Honest (fst p) (halves cu cl) /\ bparams (fst p) = params_new 64 4 /\
    is_bn rho Honest (snd p) (digits64 6 q) /\ bparams (snd p) = params_new 64 6 /\ value_of (2 ^ Z.of_nat 64) (digits64 6 q) = q)).
  assert (H2w : two_weeks = 1209600) by reflexivity.
  destruct (halves_facts pu pl Rpu Rpl) as (V1 & V2 & V3). fold T in V3. fold (halves pu pl) in P1, P2. fold (halves cu cl) in T1, T2.
  assert (Rq : 0 <= q < 2 ^ 384). { unfold q. split; [apply Z.div_pos; lia|]. apply Z.div_lt_upper_bound; [lia|]. rewrite H2w. nia. }
  eapply hwp_awp, awp_mono; [apply (verify_tail_awp rho one Honest target ptarget t_sum (halves pu pl) t two_weeks q (T * t mod two_weeks)); auto; try lia|].
  - cbv beta. intros [x y] (K1 & K2 & K3 & K4 & K5). cbn [fst snd] in *. subst x. auto.
Qed.

Lemma owp_host {A B} (r : res A) (f : A -> prog B) : (forall a, owp rho (f a) (fun r => r = Panic)) ->
  owp rho (bind (lift (unwrap_res r)) f) (fun r => r = Panic).
Proof. intros H. destruct r; simpl; auto. Qed.

Lemma verify_panics cu cl pu pl t : (32 < NUM_BITS)%nat -> 2 ^ 64 <= modulus -> 0 <= t < 2 ^ 64 -> ~ (302400 < t < 4838400) ->
  owp rho (verify_difficulty_update cu cl pu pl t) (fun r => r = Panic).
Proof.
  intros HN HP Ht Rt. unfold verify_difficulty_update, bignat_u, an_u, num_u.
  do 8 (apply owp_skip; intros ?). apply owp_host. intros ?. do 2 (apply owp_skip; intros ?). apply owp_host. intros ?.
  assert (HA : forall v, hwp rho (an_alloc (Ok (from_u64 v))) (fun a => is_an rho a (fmk v))).
  { intros v. eapply an_alloc_hwp; [reflexivity|]. intros x Hx. apply is_an_mk; auto. apply fmk_canon. }
  eapply owp_step; [apply HA|]. intros fe Hfe. rewrite fmk_id in Hfe by (split; lia).
  eapply owp_step; [apply HA|]. intros lo Hlo. eapply owp_step; [apply HA|]. intros up Hup.
  eapply owp_bind_ok; [apply (lt_u_hwp _ one _ _ _ _ _ Hlo Hfe); lia|]. cbv beta. intros r1 Hr1.
  eapply owp_bind_ok; [apply (lt_u_hwp _ one _ _ _ _ _ Hfe Hup); lia|]. cbv beta. intros r2 Hr2.
  change (two_weeks / 4) with 302400 in Hr1. change (two_weeks * 4) with 4838400 in Hr2.
  assert (HB : r1 && r2 = false). { rewrite Hr1, Hr2, span_check by first [lia | split; lia]. lia. }
  rewrite HB. reflexivity.
Qed.

(** All wires zero. *)
Lemma zero_num {B} nm (k : num -> prog B) w ys Q :
  (forall n, lc_eval rho (n_lc n) = 0 -> pwp Any rho (k n) ys Q) -> pwp Any rho (bind (num_u nm w) k) ([0] ++ ys) Q.
Proof.
  intros H. apply pwp_bind. eapply pwp_mono; [apply awp_pwp, (num_u_awp rho Any nm w 0); [apply canon_0|discriminate]|].
  cbv beta. intros n [N _]. auto.
Qed.
Lemma zero_half {B} nm (k : bignat -> prog B) n ys Q : (64 < NUM_BITS)%nat -> lc_eval rho (n_lc n) = 0 ->
  (forall b, is_bn rho Any b (digits64 2 0) -> bparams b = params_new 64 2 -> in_word b (digits64 2 0) -> limb_values b <> None -> pwp Any rho (k b) ys Q) ->
  pwp Any rho (bind (bignat_u nm n 64 2) k) (num_aux 64 2 0 ++ ys) Q.
Proof.
  intros HN Hn H. unfold bignat_u. eapply pwp_step.
  { apply awp_wrets; [apply (from_num_int_awp rho one Any n 64 2 0 0)|apply (from_num_some n 64 2); lia]; try lia; try discriminate.
    - now rewrite Hn.
    - reflexivity. }
  cbv beta. fold (digits64 2 0). intros b [(H1 & H2 & H3 & _) H4]. auto.
Qed.
Lemma zero_an {B} nm (k : allocated_num -> prog B) w ys Q :
  (forall n, pwp Any rho (k n) ys Q) -> pwp Any rho (bind (an_u nm w) k) ([0] ++ ys) Q.
Proof.
  intros H. unfold an_u. eapply pwp_step; [apply an_alloc_awp with (Q := fun _ => True); [discriminate|auto]|]. auto.
Qed.

Definition zero_aux : list Z :=
  [0] ++ num_aux 64 2 0 ++ [0] ++ [0] ++ [0] ++ [0] ++ num_aux 64 2 0 ++ num_aux 64 2 0 ++ num_aux 64 2 0 ++ num_aux 64 2 0 ++
  [0] ++ [0] ++ [0] ++ cmp_aux true ++ cmp_aux true ++ verify_aux (halves 0 0) (digits64 2 0) 0 0 0.
Lemma verify_prefix_zero cu cl pu pl t : (194 <= CAPACITY <= 255)%nat -> exact_carries verify_word 64 ->
  pwp Any rho (verify_prefix cu cl pu pl t) zero_aux (fun p => ev rho (limbs (fst p)) (halves 0 0) /\ ev rho (limbs (snd p)) (digits64 6 0) /\
    limb_width (bparams (fst p)) = 64%nat /\ limb_width (bparams (snd p)) = 64%nat).
Proof.
  intros HC HX. assert (HN : (64 < NUM_BITS)%nat) by (unfold CAPACITY in HC; lia).
  unfold verify_prefix, zero_aux.
  apply zero_num. intros n1 N1. apply zero_half; auto. intros t_sum S1 S2 S3 _.
  do 4 (apply zero_num; intros ? ?).
  apply zero_half; auto. intros tar_u A1 A2 A3 A4. apply zero_half; auto. intros tar_l B1 B2 B3 B4.
  destruct (concat_is rho Any tar_u tar_l _ _ A2 B2 A1 B1 A3 B3 (or_introl A4)) as (target & HT & T1 & T2 & T3).
  rewrite HT. cbn [unwrap_res lift bind].
  apply zero_half; auto. intros ptar_u C1 C2 C3 C4. apply zero_half; auto. intros ptar_l D1 D2 D3 D4.
  destruct (concat_is rho Any ptar_u ptar_l _ _ C2 D2 C1 D1 C3 D3 (or_introl C4)) as (ptarget & HT' & P1 & P2 & P3).
  rewrite HT'. cbn [unwrap_res lift bind].
  do 3 (apply zero_an; intros ?). apply lt_u_pwp; [auto|discriminate|]. intros r1. apply lt_u_pwp; [auto|discriminate|]. intros r2.
  destruct (r1 && r2); [|exact I]. cbn [assert bind].
  destruct (halves_facts 0 0 ltac:(lia) ltac:(lia)) as (V1 & V2 & V3). fold (halves 0 0) in *.
  apply awp_pwp. eapply awp_mono; [apply (verify_tail_awp rho one Any target ptarget t_sum (halves 0 0) 0 0 0 0); auto; try lia; try discriminate|].
  cbv beta. intros [x y] (K1 & K2 & K3 & K4 & K5). cbn [fst snd] in *. subst x. rewrite T3, K4. split; [apply T1|]. split; [apply K2|]. auto.
Qed.

End Rho.
End Difficulty.
