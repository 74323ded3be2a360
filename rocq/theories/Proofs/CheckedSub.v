(** C106: subtraction with a range check of the result is an exact comparison. *)
From Coq Require Import ZArith Bool List Lia ZifyBool ZifyNat.
From Verif.Model Require Import Base CS Bellpepper Util Poly Bignat Fields F64.
From Verif.Spec Require Import Spec SpecF64 SpecExpr SpecModular SpecExact SpecWide SpecSub.
From Verif.Proofs Require Import Field Arith Convert Limbs Wp Lc BitNum PolyP BoolP BignatEq BignatAlloc Group Carry Regroup Mult MultC TopBits TopPoly TopBignat1 PureOps TopPure Owp MinBits MuxP SubP TopBignat2 TopBignat3 Room TopBignat4 PrimeFields F64P TopF64 ExactP TopExact SubFree DividesP Total TopTotal DecP OutOfRange Wide WidePower.
Import ListNotations.
Local Open Scope Z_scope.

Section Checked.
Context {E : Env} {W : Wf E}.

Section Rho.
Context (rho : assignment) (one : rho ONE = 1).

Lemma checked_swp md a b A B :
  let w := limb_width (bparams a) in
  ev rho (limbs a) A -> ev rho (limbs b) B -> in_word a A -> in_word b B ->
  n_limbs (bparams a) = length A -> n_limbs (bparams b) = length B -> 0 <= max_word (bparams b) -> (1 <= w)%nat ->
  group_no_wrap (sub_word a b) w ->
  swp md rho (checked_sub a b) (fun d => bparams d = params_new w (length A) /\ length (limbs d) = length A /\
    range_wires rho w d /\ value_of (2 ^ Z.of_nat w) A = value_of (2 ^ Z.of_nat w) B + int_of rho d).
Proof.
  intros w HA HB WA WB NA NB H0 Hw Hnw. unfold checked_sub. sstep. sstep.
  eapply swp_mono; [apply (sub_swp rho one md a b A B); auto|]. cbv zeta. fold w. intros d (D0 & D1 & D2 & D3). sstep. sstep.
  eapply swp_mono; [apply assert_well_formed_swp; auto|]. cbv beta. intros _ HR. rewrite D1 in HR. cbn [params_new limb_width] in HR. rewrite width1_pos in HR by auto.
  sstep. auto.
Qed.

Lemma checked_awp md a b A B D :
  let w := limb_width (bparams a) in
  limb_width (bparams b) = w ->
  is_bn rho md a A -> is_bn rho md b B -> in_word a A -> in_word b B -> 0 <= max_word (bparams b) ->
  (1 <= w)%nat -> (w < NUM_BITS)%nat -> (1 <= length A)%nat -> length D = length A ->
  Forall (fun v => 0 <= v < 2 ^ Z.of_nat w) D ->
  value_of (2 ^ Z.of_nat w) A = value_of (2 ^ Z.of_nat w) B + value_of (2 ^ Z.of_nat w) D ->
  group_room (sub_word a b) w -> sides_zero (sub_word a b) w A (rsum B D) ->
  awp md rho (checked_sub a b) ((D ++ regroup_aux (sub_word a b) w A (rsum B D)) ++ flat_map (fun y => fits_aux y w) D)
    (fun d => is_bn rho md d D /\ bparams d = params_new w (length A)).
Proof.
  intros w Hw HA HB WA WB H0 Hw1 HwN HLA HLD HD HV Hroom Hsides. unfold checked_sub. apply awp_bind. astep.
  eapply awp_mono; [apply (sub_awp rho one md a b A B D); auto|]. cbv beta. intros d [D1 D2]. fold w in D2.
  assert (Dw : limb_width (bparams d) = w) by (rewrite D2; reflexivity).
  apply awp_bind_all. astep. eapply awp_mono.
  - rewrite <- Dw. apply (assert_well_formed_awp rho one md d D D1).
    + rewrite Dw, width1_pos by auto. eapply Forall_impl; [|exact HD]. cbv beta. lia.
    + intros _. rewrite Dw. lia.
  - cbv beta. intros _ _. astep. auto.
Qed.
End Rho.

(** Exactly which differences any prover can pass, when the limbs beyond the common groups are empty. *)
Lemma top_checked_sub_prover wit a b A B D s d s' rho0 :
  let w := limb_width (bparams a) in
  let X := 2 ^ Z.of_nat w in
  let M := Z.max (max_word (bparams a)) (max_word (bparams b) + (X - 1)) in
  good_for rho0 s -> bignat_for rho0 s a A -> bignat_for rho0 s b B -> limb_width (bparams b) = w ->
  run wit (checked_sub a b) s = (Ok d, s') -> A <> [] -> B <> [] -> (1 <= w)%nat -> (w < NUM_BITS)%nat ->
  group_no_wrap M w -> group_room M w ->
  (length D = length A -> Forall (fun v => 0 <= v < X) D -> value_of X A = value_of X B + value_of X D -> sides_zero M w A (rsum B D)) ->
  (completed s rho0 s' (fun rho => wires rho (limbs d) = D) <->
   length D = length A /\ Forall (fun v => 0 <= v < X) D /\ value_of X A = value_of X B + value_of X D).
Proof.
  intros w X M G Ha Hb Hwb Hr HA HB Hw HwN Hn Hroom HZ.
  pose proof (same_on_refl s rho0) as R0.
  pose proof (bignat_for_is _ _ _ _ _ wit G Ha R0 (proj1 (G _ R0))) as [(_ & _ & NA & CA & _) WA0].
  pose proof (bignat_for_is _ _ _ _ _ wit G Hb R0 (proj1 (G _ R0))) as [(_ & _ & NB & CB & _) WB0].
  apply nonempty_length in HA, HB. pose proof (in_word_max _ _ WB0 HB) as H0.
  split.
  - intros (rho & Hso & Hs & HD).
    destruct (bignat_for_is _ _ _ _ _ wit G Ha Hso (proj1 Hs)) as [(Ea & _) Wa].
    destruct (bignat_for_is _ _ _ _ _ wit G Hb Hso (proj1 Hs)) as [(Eb & _) Wb].
    pose proof (checked_swp rho (proj1 Hs) Any a b A B Ea Eb Wa Wb NA NB H0 Hw Hn) as K. cbv zeta in K.
    pose proof (swp_run_any _ _ _ _ _ _ _ Hr Hs K) as (K1 & K2 & K3 & K4). unfold range_wires in K3. unfold int_of in K4. rewrite HD in K3, K4. rewrite K1 in K4. cbn [params_new limb_width] in K4.
    split; [rewrite <- HD; unfold wires; now rewrite map_length|]. auto.
  - intros (LD & RD & HV).
    destruct (awp_run wit (checked_sub a b) s rho0 ((D ++ regroup_aux (sub_word a b) w A (rsum B D)) ++ flat_map (fun y => fits_aux y w) D)
      (fun rho d => is_bn rho (md_of wit) d D /\ bparams d = params_new w (length A)) d s' G) as (rho & H1 & H2 & H3); [|exact Hr|].
    { intros rho Hso one.
      destruct (bignat_for_is _ _ _ _ _ wit G Ha Hso one) as [Ia Wa].
      destruct (bignat_for_is _ _ _ _ _ wit G Hb Hso one) as [Ib Wb].
      apply (checked_awp rho one (md_of wit) a b A B D); auto. }
    exists rho. split; [exact H1|]. split; [apply H2, same_on_refl|]. destruct (H3 rho (same_on_refl _ _)) as [[K1 K2] _].
    apply (ev_canon _ _ _ K1). apply K2.
Qed.

Lemma rsum_Forall (P : Z -> Prop) A B : P 0 -> (forall x y, P x -> P y -> P (x + y)) -> Forall P A -> Forall P B -> Forall P (rsum A B).
Proof.
  intros H0 Hp HA HB. apply Forall_forall. intros v Hv. apply (In_nth _ _ 0) in Hv. destruct Hv as (i & _ & <-). rewrite rsum_nth.
  assert (K : forall l, Forall P l -> P (nth i l 0)).
  { intros l Hl. destruct (Nat.lt_ge_cases i (length l)); [|now rewrite nth_overflow]. rewrite Forall_forall in Hl. apply Hl, nth_In. auto. }
  auto.
Qed.

(** No smaller number of limbs on the left. *)
Lemma top_checked_sub_exact wit a b A B D s d s' rho0 :
  let w := limb_width (bparams a) in
  let X := 2 ^ Z.of_nat w in
  let M := Z.max (max_word (bparams a)) (max_word (bparams b) + (X - 1)) in
  good_for rho0 s -> bignat_for rho0 s a A -> bignat_for rho0 s b B -> limb_width (bparams b) = w ->
  run wit (checked_sub a b) s = (Ok d, s') -> (1 <= length B <= length A)%nat -> (1 <= w)%nat -> (w < NUM_BITS)%nat ->
  group_no_wrap M w -> group_room M w ->
  (completed s rho0 s' (fun rho => wires rho (limbs d) = D) <->
   length D = length A /\ Forall (fun v => 0 <= v < X) D /\ value_of X A = value_of X B + value_of X D).
Proof.
  intros w X M G Ha Hb Hwb Hr HL Hw HwN Hn Hroom. apply (top_checked_sub_prover wit a b A B D s d s' rho0); auto.
  1,2: intros ->; cbn [length] in HL; lia.
  intros LD _ _. apply sides_zero_same; [apply Hroom|lia|rewrite rsum_length; lia|]. rewrite rsum_length. f_equal. lia.
Qed.

(** The honest verdict. *)
Lemma well_formed_value rho (one : rho ONE = 1) b D v : bn_signed rho b D v -> n_limbs (bparams b) = length D -> (1 <= limb_width (bparams b))%nat -> (limb_width (bparams b) <= NUM_BITS)%nat ->
  Forall (fun x => 0 <= x < 2 ^ Z.of_nat (limb_width (bparams b))) D -> hwp rho (assert_well_formed b) (fun _ => True).
Proof.
  intros (H1 & H2 & H3 & H4) HN Hw HwN HR.
  set (b' := mkBigNat (limbs b) (limb_values b) (Some (value_of (2 ^ Z.of_nat (limb_width (bparams b))) D)) (bparams b)).
  change (hwp rho (assert_well_formed b') (fun _ => True)). eapply hwp_awp. apply (assert_well_formed_awp rho one Honest b' D).
  - split; [exact H1|]. split; [|split; [exact HN|split; [exact H4|intros _; split; [exact H2|reflexivity]]]].
    unfold lv_ok. cbn [b' limb_values limbs]. rewrite H2, (ev_length _ _ _ H1). auto.
  - cbn [b' bparams]. rewrite width1_pos by auto. eapply Forall_impl; [|exact HR]. cbv beta. lia.
  - intros _. exact HwN.
Qed.

Lemma top_checked_sub_verdict a b A B s :
  let w := limb_width (bparams a) in
  let X := 2 ^ Z.of_nat w in
  let v := value_of X A - value_of X B in
  good s -> bignat_at s a A -> bignat_at s b B -> limb_width (bparams b) = w ->
  (1 <= w)%nat -> (w < NUM_BITS)%nat -> (1 <= length B <= length A)%nat ->
  Z.abs v < 2 ^ Z.of_nat (w * length A) ->
  group_no_wrap (Z.max (max_word (bparams a)) (max_word (bparams b) + (X - 1))) w ->
  group_room (Z.max (max_word (bparams a)) (max_word (bparams b) + (X - 1))) w ->
  exists d s', run true (checked_sub a b) s = (Ok d, s') /\ value d = Some v /\ (good s' <-> value_of X B <= value_of X A).
Proof.
  intros w X v G Ha Hb HW Hw HwN HL Hv HN HR.
  destruct (dec_run (checked_sub a b) s (value_of X B <= value_of X A) (fun rho d => value d = Some v) G) as (d & s' & H1 & H2 & H3).
  { intros rho Hag one. destruct (bignat_at_is _ _ _ _ Ha Hag one) as [Ia Wa].
    destruct (bignat_at_is _ _ _ _ Hb Hag one) as [Ib Wb]. unfold checked_sub.
    apply (dec_iff rho _ (value_of X B <= value_of X A /\ True)); [tauto|].
    eapply dec_bind; [apply dec_ns, (sub_signed rho one a b A B); auto; eapply in_word_max; eauto; lia|].
    cbv beta. fold w X v. intros d [D1 D2]. eapply dec_step; [apply hwp_ns, (well_formed_value rho one d _ _ D1)|].
    - rewrite D2, map_length, seq_length. reflexivity.
    - rewrite D2. exact Hw.
    - rewrite D2. cbn [params_new limb_width]. lia.
    - rewrite D2. cbn [params_new limb_width]. apply Forall_map, Forall_forall. intros. apply digit_range.
    - intros _ _. apply dec_ret. apply D1. }
  exists d, s'. split; [exact H1|]. split; [|exact H3]. exact (H2 _ (agree_asg s')).
Qed.

(** ** 64-bit limbs over the fields in use, of any sizes *)
Section Usual.
Context (HU : usual_field E).

Lemma word_sub : group_no_wrap (2 ^ 64 - 1 + (2 ^ 64 - 1)) 64 /\ group_room (2 ^ 64 - 1 + (2 ^ 64 - 1)) 64.
Proof using HU W.
  pose proof (cap_pow HU 236 ltac:(lia)) as HC.
  pose proof (top_room_sub 64) as T. cbv zeta in T. change (2 ^ Z.of_nat 64) with (2 ^ 64) in T. apply T; [lia|lia|].
  pose proof (caps HU) as HK. pose proof (exact_pow (proj1 HU) ltac:(lia) 64 1) as K. cbv zeta in K. change (2 ^ Z.of_nat 64) with (2 ^ 64) in K.
  replace (2 ^ 64 - 1 + (2 ^ 64 - 1)) with ((2 ^ 64 - 1) * 2 ^ 1) by lia. apply K; lia.
Qed.

Lemma sides64 A B D : digits A -> digits B -> digits D -> (1 <= length A)%nat -> length D = length A ->
  int64 A = int64 B + int64 D -> sides_zero (2 ^ 64 - 1 + (2 ^ 64 - 1)) 64 A (rsum B D).
Proof using HU W.
  intros DA DB DD LA LD HV i Hi. assert (Hg : (1 <= group_size (2 ^ 64 - 1 + (2 ^ 64 - 1)) 64)%nat) by apply (proj2 word_sub).
  change (common_limbs (group_size (2 ^ 64 - 1 + (2 ^ 64 - 1)) 64) (length A) (length (rsum B D)) <= i)%nat in Hi. rewrite rsum_length, LD in Hi.
  pose proof (common_ge (group_size (2 ^ 64 - 1 + (2 ^ 64 - 1)) 64) (length A) (Nat.max (length B) (length A)) Hg) as HC.
  assert (HI : (length A <= i)%nat) by lia. pose proof (digits_bound A DA) as HB.
  split; [now apply nth_overflow|]. apply (high_zero _ (length A)); auto.
  - apply rsum_Forall; [lia|lia|now apply digits_nonneg|now apply digits_nonneg].
  - rewrite rsum_value. fold (int64 B) (int64 D). lia.
Qed.

Lemma wide_sub_exact wit a b A B D s d s' rho0 : good_for rho0 s -> num64 rho0 s a A -> num64 rho0 s b B ->
  run wit (checked_sub a b) s = (Ok d, s') ->
  (completed s rho0 s' (fun rho => wires rho (limbs d) = D) <->
   length D = length A /\ digits D /\ int64 A = int64 B + int64 D).
Proof using HU W.
  intros G HA HB Hr.
  destruct (num64_digits _ _ _ _ G HA) as (DA & LA & UA & _). destruct (num64_digits _ _ _ _ G HB) as (DB & LB & UB & _).
  destruct HA as (Ha & WA & MA & _ & NA & _). destruct HB as (Hb & WB & MB & _ & NB & _). destruct word_sub as [R1 R2].
  pose proof (top_checked_sub_prover wit a b A B D s d s' rho0) as T. cbv zeta in T. rewrite WA, WB, MA, MB in T. change (2 ^ Z.of_nat 64) with (2 ^ 64) in T.
  rewrite Z.max_r in T by lia. fold (int64 A) (int64 B) (int64 D) (digits D) in T.
  apply (T G Ha Hb eq_refl Hr NA NB ltac:(lia) (nb64 HU) R1 R2). intros LD RD HV. now apply sides64.
Qed.

Lemma wide_sub_compare wit a b A B s d s' rho0 : good_for rho0 s -> num64 rho0 s a A -> num64 rho0 s b B ->
  run wit (checked_sub a b) s = (Ok d, s') ->
  (completed s rho0 s' (fun _ => True) <-> int64 B <= int64 A).
Proof using HU W.
  intros G HA HB Hr.
  pose proof (fun D => wide_sub_exact wit a b A B D s d s' rho0 G HA HB Hr) as T.
  destruct (num64_digits _ _ _ _ G HA) as (DA & LA & UA & _). destruct (num64_digits _ _ _ _ G HB) as (DB & LB & UB & _).
  pose proof (digits_bound A DA) as BA. pose proof (digits_bound B DB) as BB. split.
  - intros (rho & H1 & H2 & _). destruct (proj1 (T (wires rho (limbs d)))) as (_ & K2 & K3); [exists rho; auto|].
    pose proof (digits_bound _ K2). lia.
  - intros H. destruct (exists_digits (int64 A - int64 B) (length A)) as (D & LD & DD & VD); [lia|].
    destruct (proj2 (T D)) as (rho & H1 & H2 & _); [split; [exact LD|]; split; [exact DD|lia]|]. exists rho. auto.
Qed.

Lemma honest_checked_sub a b A B s : good s -> num64_at s a A -> num64_at s b B -> int64 B <= int64 A ->
  exists d s', run true (checked_sub a b) s = (Ok d, s') /\ good s' /\ value d = Some (int64 A - int64 B).
Proof using HU W.
  intros G HA HB HV. pose proof (good_good_for s G) as GF. destruct (num64_digits _ _ _ _ GF (at_num64 _ _ _ HA)) as (DA & LA & _). destruct (num64_digits _ _ _ _ GF (at_num64 _ _ _ HB)) as (DB & LB & _).
  pose proof (digits_bound A DA) as BA. pose proof (digits_bound B DB) as BB.
  destruct HA as (Ha & WA & MA & _ & NA & _). destruct HB as (Hb & WB & MB & _ & NB & _). destruct word_sub as [R1 R2].
  destruct (exists_digits (int64 A - int64 B) (length A)) as (D & LD & DD & VD); [lia|].
  assert (HM : sub_word a b = 2 ^ 64 - 1 + (2 ^ 64 - 1)).
  { unfold sub_word. rewrite WA, MA, MB. change (2 ^ Z.of_nat 64) with (2 ^ 64). lia. }
  destruct (honest_run (checked_sub a b) s ((D ++ regroup_aux (sub_word a b) 64 A (rsum B D)) ++ flat_map (fun y => fits_aux y 64) D) (fun rho d => is_bn rho Honest d D /\ bparams d = params_new 64 (length A)) G) as (d & s' & Hr & Hg & _ & HQ).
  { intros rho Hag one. destruct (bignat_at_is _ _ _ _ Ha Hag one) as [Ia Wa]. destruct (bignat_at_is _ _ _ _ Hb Hag one) as [Ib Wb].
    rewrite HM. pose proof (checked_awp rho one Honest a b A B D) as T. cbv zeta in T. rewrite WA, HM in T. change (2 ^ Z.of_nat 64) with (2 ^ 64) in T.
    fold (int64 A) (int64 B) (int64 D) (digits D) in T.
    apply T; auto; try lia; [apply (nb64 HU)|]. apply sides64; auto; lia. }
  exists d, s'. split; [exact Hr|]. split; [exact Hg|].
  destruct (HQ _ (agree_asg s')) as [K1 K2]. rewrite (is_bn_value _ _ _ _ K1 eq_refl), K2. cbn [params_new limb_width]. change (2 ^ Z.of_nat 64) with (2 ^ 64). fold (int64 D). now rewrite VD.
Qed.

Lemma honest_sub_verdict a b A B s : good s -> num64_at s a A -> num64_at s b B -> (length B <= length A)%nat ->
  exists d s', run true (checked_sub a b) s = (Ok d, s') /\ value d = Some (int64 A - int64 B) /\ (good s' <-> int64 B <= int64 A).
Proof using HU W.
  intros G HA HB HL. pose proof (good_good_for s G) as GF. destruct (num64_digits _ _ _ _ GF (at_num64 _ _ _ HA)) as (DA & LA & _). destruct (num64_digits _ _ _ _ GF (at_num64 _ _ _ HB)) as (DB & LB & _).
  pose proof (digits_bound A DA) as BA. pose proof (digits_bound B DB) as BB.
  assert (HP : 2 ^ Z.of_nat (64 * length B) <= 2 ^ Z.of_nat (64 * length A)) by (apply Z.pow_le_mono_r; lia).
  destruct HA as (Ha & WA & MA & _ & NA & _). destruct HB as (Hb & WB & MB & _ & NB & _). destruct word_sub as [R1 R2].
  pose proof (top_checked_sub_verdict a b A B s) as T. cbv zeta in T. rewrite WA, WB, MA, MB in T. change (2 ^ Z.of_nat 64) with (2 ^ 64) in T.
  rewrite Z.max_r in T by lia. fold (int64 A) (int64 B) in T. exact (T G Ha Hb eq_refl ltac:(lia) (nb64 HU) ltac:(lia) ltac:(lia) R1 R2).
Qed.

Lemma honest_plain_sub a b A B s : good s -> num64_at s a A -> num64_at s b B -> (length B <= length A)%nat ->
  exists d s', run true (Bignat.sub a b) s = (Ok d, s') /\ value d = Some (int64 A - int64 B) /\ (good s' <-> int64 B <= int64 A).
Proof using HU W.
  intros G HA HB HL. pose proof (good_good_for s G) as GF. destruct (num64_digits _ _ _ _ GF (at_num64 _ _ _ HA)) as (DA & LA & _). destruct (num64_digits _ _ _ _ GF (at_num64 _ _ _ HB)) as (DB & LB & _).
  pose proof (digits_bound A DA) as BA. pose proof (digits_bound B DB) as BB.
  assert (HP : 2 ^ Z.of_nat (64 * length B) <= 2 ^ Z.of_nat (64 * length A)) by (apply Z.pow_le_mono_r; lia).
  destruct HA as (Ha & WA & MA & _ & NA & _). destruct HB as (Hb & WB & MB & _ & NB & _). destruct word_sub as [R1 R2].
  pose proof (top_sub_verdict a b A B s) as T. cbv zeta in T. rewrite WA, WB, MA, MB in T. change (2 ^ Z.of_nat 64) with (2 ^ 64) in T.
  rewrite Z.max_r in T by lia. fold (int64 A) (int64 B) in T.
  destruct (T G Ha Hb eq_refl ltac:(lia) (nb64 HU) ltac:(lia) ltac:(lia) R1 R2) as (d & s' & D & H1 & H2 & _ & _ & _ & _ & _ & H3). exists d, s'. auto.
Qed.

(** Without the check: what [sub] alone accepts when the limbs of [b] are not more numerous. *)
Lemma wide_sub_unchecked wit a b A B s d s' rho0 : good_for rho0 s -> num64 rho0 s a A -> num64 rho0 s b B -> (length B <= length A)%nat ->
  run wit (Bignat.sub a b) s = (Ok d, s') ->
  completed s rho0 s' (fun rho => wires rho (limbs d) = map (fun i => (nth i A 0 - nth i B 0) mod modulus) (seq 0 (length A))).
Proof using HU W.
  intros G HA HB HL Hr. destruct (num64_digits _ _ _ _ G HA) as (DA & LA & _).
  destruct HA as (Ha & WA & MA & _ & NA & _). destruct HB as (Hb & WB & MB & _ & NB & _). destruct word_sub as [R1 R2].
  pose proof (top_sub_free wit a b A B s d s' rho0) as T. cbv zeta in T. rewrite WA, WB, MA, MB in T. change (2 ^ Z.of_nat 64) with (2 ^ 64) in T.
  rewrite Z.max_r in T by lia. apply T; auto; [lia|]. eapply Forall_impl; [|exact DA]. cbv beta. lia.
Qed.
End Usual.
End Checked.

Lemma one_digit l v : length l = 1%nat -> int64 l = v -> l = [v].
Proof. destruct l as [|x [|y l]]; try discriminate. intros _ H. unfold int64, value_of in H. cbn [fold_right] in H. f_equal. lia. Qed.
Lemma two_digits l v : length l = 2%nat -> digits l -> int64 l = v -> 0 <= v < 2 ^ 64 -> l = [v; 0].
Proof.
  destruct l as [|x [|y [|z l]]]; try discriminate. intros _ D H Hv. inversion D as [|? ? Dx D']; subst. inversion D' as [|? ? Dy _]; subst.
  unfold int64, value_of in *. cbn [fold_right] in *. assert (y = 0) by lia. subst y. f_equal. lia.
Qed.

Lemma checked_sub_witness : let E := pallas_f64 log2_down true in let two x nx y ny := let! a := alloc_from_nat (Ok x) 64 nx in let! b := alloc_from_nat (Ok y) 64 ny in Ret (a, b) in
  (exists a b s d s', run true (two (2 ^ 64 + 12) 2%nat 13 5%nat) st_init = (Ok (a, b), s) /\ good s /\
     run true (checked_sub a b) s = (Ok d, s') /\ good s' /\ value d = Some (2 ^ 64 - 1)) /\
  (exists a b s d s', run true (two 5 2%nat 6 1%nat) st_init = (Ok (a, b), s) /\ good s /\
     run true (checked_sub a b) s = (Ok d, s') /\ ~ completed s (asg s) s' (fun _ => True)) /\
  (exists a b s d s', run true (two 5 2%nat 6 1%nat) st_init = (Ok (a, b), s) /\ good s /\
     run true (Bignat.sub a b) s = (Ok d, s') /\ completed s (asg s) s' (fun rho => wires rho (limbs d) = [modulus - 1; 0])).
Proof.
  intros E two. pose proof (proj1 (usual_pallas log2_down true log2_down_faithful)) as HU. pose proof (wf_pallas_f64 log2_down true) as W. fold E in HU, W.
  split; [|split].
  - destruct (wide_two HU (2 ^ 64 + 12) 2 13 5) as (a & b & A & B & s & R & G & NA & NB & LA & LB & VA & VB); try lia.
    destruct (honest_checked_sub HU a b A B s G NA NB) as (d & s' & H1 & H2 & H3); [lia|].
    exists a, b, s, d, s'. rewrite VA, VB in H3. auto.
  - destruct (wide_two HU 5 2 6 1) as (a & b & A & B & s & R & G & NA & NB & LA & LB & VA & VB); try lia.
    destruct (honest_sub_verdict HU a b A B s G NA NB) as (d & s' & H1 & H2 & H3); [lia|].
    exists a, b, s, d, s'. split; [exact R|]. split; [exact G|]. split; [exact H1|].
    rewrite (wide_sub_compare HU true a b A B s d s' (asg s) (good_good_for s G) (at_num64 _ _ _ NA) (at_num64 _ _ _ NB) H1). lia.
  - destruct (wide_two HU 5 2 6 1) as (a & b & A & B & s & R & G & NA & NB & LA & LB & VA & VB); try lia.
    pose proof (good_good_for s G) as GF.
    destruct (num64_digits _ _ _ _ GF (at_num64 _ _ _ NA)) as (DA & _). destruct (num64_digits _ _ _ _ GF (at_num64 _ _ _ NB)) as (DB & _).
    destruct (honest_plain_sub HU a b A B s G NA NB) as (d & s' & H1 & _); [lia|].
    exists a, b, s, d, s'. split; [exact R|]. split; [exact G|]. split; [exact H1|].
    pose proof (wide_sub_unchecked HU true a b A B s d s' (asg s) GF (at_num64 _ _ _ NA) (at_num64 _ _ _ NB) ltac:(lia) H1) as K.
    assert (EB : B = [6]) by (apply (one_digit B 6); auto).
    assert (EA : A = [5; 0]) by (apply (two_digits A 5); auto; lia).
    rewrite EA, EB in K. exact K.
Qed.
