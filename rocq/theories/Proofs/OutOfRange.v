(** Honest runs on operands outside the domain of the operation (C97). *)
From Coq Require Import ZArith Bool List Lia ZifyBool ZifyNat.
From Verif.Model Require Import Base CS Bellpepper Util Poly Bignat Gadget.
From Verif.Spec Require Import Spec SpecExact.
From Verif.Proofs Require Import Field Arith Convert Limbs Wp Lc BitNum PolyP BoolP BignatEq BignatAlloc Group Carry Regroup Mult MultC PureOps SubP MinBits Owp TopBits TopBignat1 TopBignat2 TopBignat3 Total TopTotal DecP ExactP.
Import ListNotations.
Local Open Scope Z_scope.

Section Out.
Context {E : Env} {W : Wf E}.

(** ** Negative integers *)
Lemma signed_limbs v w n : (w < NUM_BITS)%nat -> Z.abs v < 2 ^ Z.of_nat (w * n) ->
  nat_to_limbs v w n = Ok (map (digit w v) (seq 0 n)).
Proof.
  intros Hw H. rewrite nat_to_limbs_ok by auto. f_equal. apply map_ext. intros i. unfold fmk.
  apply Z.mod_small. pose proof (digit_range w v i). pose proof (width_lt_modulus w Hw). lia.
Qed.

Lemma top_split_signed v w n : (w < NUM_BITS)%nat ->
  (Z.abs v < 2 ^ Z.of_nat (w * n) -> exists ls, nat_to_limbs v w n = Ok ls /\ length ls = n /\
     Forall (fun d => 0 <= d < 2 ^ Z.of_nat w) ls /\ value_of (2 ^ Z.of_nat w) ls = v mod 2 ^ Z.of_nat (w * n)) /\
  (2 ^ Z.of_nat (w * n) <= Z.abs v -> nat_to_limbs v w n = Err Unsatisfiable).
Proof.
  intros Hw. split; [|apply nat_to_limbs_err]. intros H. rewrite signed_limbs by auto. eexists; split; [reflexivity|].
  split; [now rewrite map_length, seq_length|]. split; [|apply digits_value].
  apply Forall_map, Forall_forall. intros; apply digit_range.
Qed.

Definition bn_signed rho (b : bignat) (vs : list Z) (v : Z) : Prop :=
  ev rho (limbs b) vs /\ limb_values b = Some vs /\ value b = Some v /\ Forall canon vs.

Lemma alloc_signed rho v w n : (1 <= n)%nat -> (w < NUM_BITS)%nat -> Z.abs v < 2 ^ Z.of_nat (w * n) ->
  hwp rho (alloc_from_nat (Ok v) w n) (fun b => bn_signed rho b (map (digit w v) (seq 0 n)) v /\ bparams b = params_new w n).
Proof.
  intros Hn Hw Hv. set (ys := map (digit w v) (seq 0 n)).
  assert (HL : length ys = n) by (unfold ys; now rewrite map_length, seq_length).
  assert (HC : Forall canon ys).
  { apply Forall_map, Forall_forall. intros i _. pose proof (digit_range w v i). pose proof (width_lt_modulus w Hw).
    unfold canon. lia. }
  unfold alloc_from_nat. cbn [rbind]. rewrite signed_limbs by auto. fold ys. cbn [rbind].
  eapply hwp_awp. apply awp_bind_all. rewrite <- HL. apply limbs_alloc_awp.
  { intros _ i Hi. unfold idx. rewrite (nth_error_nth' ys 0) by lia. reflexivity. }
  intros xs Hev Hcap _ _. rewrite (Hcap eq_refl). destruct ys as [|y ys'] eqn:Ey; [cbn in HL; lia|].
  astep. split; [|reflexivity]. split; [exact Hev|]. auto.
Qed.

Lemma top_alloc_signed v w n s : good s -> (1 <= n)%nat -> (w < NUM_BITS)%nat ->
  (Z.abs v < 2 ^ Z.of_nat (w * n) -> exists b s' vs, run true (alloc_from_nat (Ok v) w n) s = (Ok b, s') /\ good s' /\
     value b = Some v /\ limb_values b = Some vs /\ Forall2 (carries s') (limbs b) vs /\ length vs = n /\
     Forall (fun d => 0 <= d < 2 ^ Z.of_nat w) vs /\ value_of (2 ^ Z.of_nat w) vs = v mod 2 ^ Z.of_nat (w * n)) /\
  (2 ^ Z.of_nat (w * n) <= Z.abs v -> run true (alloc_from_nat (Ok v) w n) s = (Err IoError, s)).
Proof.
  intros G Hn Hw. split.
  - intros Hv. destruct (hwp_run _ s _ G (fun rho _ _ => alloc_signed rho v w n Hn Hw Hv)) as (b & s' & Hr & Hg & _ & HQ).
    exists b, s', (map (digit w v) (seq 0 n)). split; auto. split; auto.
    destruct (HQ _ (agree_asg s')) as ((_ & H2 & H3 & _) & _). split; auto. split; auto.
    split; [apply carries_list; intros rho Hrho; destruct (HQ rho Hrho) as ((H1 & _ & _ & H4) & _); now apply ev_canon|].
    split; [now rewrite map_length, seq_length|]. split; [|apply digits_value].
    apply Forall_map, Forall_forall. intros; apply digit_range.
  - intros Hv. unfold alloc_from_nat. destruct n as [|n]; [lia|].
    cbn [rbind]. rewrite nat_to_limbs_err by lia. reflexivity.
Qed.

(** ** Subtraction *)
Lemma sub_signed rho (one : rho ONE = 1) a b A B :
  let w := limb_width (bparams a) in
  let X := 2 ^ Z.of_nat w in
  let v := value_of X A - value_of X B in
  let D := map (digit w v) (seq 0 (length A)) in
  is_bn rho Honest a A -> is_bn rho Honest b B -> in_word a A -> in_word b B -> limb_width (bparams b) = w ->
  0 <= max_word (bparams b) -> (1 <= w)%nat -> (w < NUM_BITS)%nat -> (1 <= length B <= length A)%nat ->
  Z.abs v < 2 ^ Z.of_nat (w * length A) ->
  group_no_wrap (sub_word a b) w -> group_room (sub_word a b) w ->
  dec rho (sub a b) (value_of X B <= value_of X A) (fun d => bn_signed rho d D v /\ bparams d = params_new w (length A)).
Proof.
  intros w X v D HA HB WA WB HW H0 Hw1 HwN HL Hv HN HR.
  assert (VD : value_of X D = v mod 2 ^ Z.of_nat (w * length A)) by apply digits_value.
  assert (LD : length D = length A) by (unfold D; now rewrite map_length, seq_length).
  assert (RD : Forall (fun d => 0 <= d < X) D) by (apply Forall_map, Forall_forall; intros; apply digit_range).
  unfold sub. rewrite (is_bn_value _ _ _ _ HA eq_refl), (is_bn_value _ _ _ _ HB eq_refl). cbn [grab rbind].
  rewrite HW. fold w X v. assert (NA : n_limbs (bparams a) = length A) by apply HA. rewrite NA.
  eapply dec_step; [apply hwp_ns, (alloc_signed rho v w (length A)); auto; lia|]. fold D.
  intros d ((D1 & D2 & D3 & D4) & D5).
  assert (Hmd : max_word (bparams d) = 2 ^ Z.of_nat w - 1) by (rewrite D5; apply params_word).
  assert (WD : in_word d D). { unfold in_word. rewrite Hmd. eapply Forall_impl; [|exact RD]. fold X. cbv beta. lia. }
  pose proof (pow2_pos w) as HX.
  destruct HB as (B1 & B2 & B3 & B4 & B5). destruct (B5 eq_refl) as [B6 _].
  destruct (add_ok b d) as (c & C1 & C2 & C3 & C4 & C5 & _).
  { split; auto. rewrite B3. symmetry. apply (ev_length _ _ _ B1). }
  { split; [rewrite D5, (ev_length _ _ _ D1), LD; reflexivity|]. rewrite D2. split; auto.
    symmetry; apply (ev_length _ _ _ D1). }
  { rewrite HW, D5. reflexivity. }
  assert (HS : Forall (fun v => 0 <= v <= max_word (bparams b) + max_word (bparams d)) (rsum B D)).
  { apply rsum_word; auto. rewrite Hmd. fold X. lia. }
  assert (HM : sub_word a b < modulus).
  { apply (group_room_word _ w); auto. unfold sub_word. fold w X. lia. }
  assert (HCS : Forall canon (rsum B D)).
  { eapply bounded_canon; [|exact HS]. rewrite Hmd. unfold sub_word in HM. fold w in HM. lia. }
  rewrite C1. cbn [lift bind].
  assert (HMc : Z.max (max_word (bparams a)) (max_word (bparams c)) = sub_word a b).
  { rewrite C2. cbn [add_params max_word]. rewrite Hmd. reflexivity. }
  assert (HSL : length (rsum B D) = length A) by (rewrite rsum_length; lia).
  eapply dec_iff; [|eapply dec_bind; [apply dec_ns, (regroup_exact_dec rho one a c A (rsum B D))|
    intros _ _; apply dec_ret]]; rewrite ?HMc; auto.
  - fold w X. rewrite rsum_value. fold X. rewrite VD. split.
    + intros [(HV & _) _]. fold v in HV. pose proof (Z.mod_pos_bound v (2 ^ Z.of_nat (w * length A)) (pow2_pos _)).
      lia.
    + intros HV. split; auto. split; [|apply sides_zero_same; try lia; [apply HR|now rewrite HSL]].
      rewrite Z.mod_small by (unfold v in *; lia). unfold v. ring.
  - apply HA.
  - apply HA.
  - apply C3.
  - destruct HA as (_ & _ & _ & _ & HA5). apply (HA5 eq_refl).
  - rewrite (C5 _ _ B6 D2), map_fmk_canon; auto.
  - unfold in_word. rewrite C2. exact HS.
  - rewrite C2. exact HW.
  - lia.
  - lia.
  - split; [split; auto|exact D5].
Qed.

Lemma top_sub_verdict a b A B s :
  let w := limb_width (bparams a) in
  let X := 2 ^ Z.of_nat w in
  let v := value_of X A - value_of X B in
  good s -> bignat_at s a A -> bignat_at s b B -> limb_width (bparams b) = w ->
  (1 <= w)%nat -> (w < NUM_BITS)%nat -> (1 <= length B <= length A)%nat ->
  Z.abs v < 2 ^ Z.of_nat (w * length A) ->
  group_no_wrap (Z.max (max_word (bparams a)) (max_word (bparams b) + (X - 1))) w ->
  group_room (Z.max (max_word (bparams a)) (max_word (bparams b) + (X - 1))) w ->
  exists d s' D, run true (sub a b) s = (Ok d, s') /\ value d = Some v /\
    limb_values d = Some D /\ Forall2 (carries s') (limbs d) D /\ length D = length A /\
    Forall (fun x => 0 <= x < X) D /\ value_of X D = v mod 2 ^ Z.of_nat (w * length A) /\
    (good s' <-> value_of X B <= value_of X A).
Proof.
  intros w X v G Ha Hb HW Hw HwN HL Hv HN HR.
  set (D := map (digit w v) (seq 0 (length A))).
  destruct (dec_run (sub a b) s (value_of X B <= value_of X A)
    (fun rho d => bn_signed rho d D v /\ bparams d = params_new w (length A)) G) as (d & s' & H1 & H2 & H3).
  { intros rho Hag one. destruct (bignat_at_is _ _ _ _ Ha Hag one) as [Ia Wa].
    destruct (bignat_at_is _ _ _ _ Hb Hag one) as [Ib Wb].
    apply (sub_signed rho one a b A B); auto. eapply in_word_max; eauto. lia. }
  exists d, s', D. split; [exact H1|]. destruct (H2 _ (agree_asg s')) as ((_ & Q2 & Q3 & _) & _).
  split; [exact Q3|]. split; [exact Q2|].
  split; [apply carries_list; intros rho Hrho; destruct (H2 rho Hrho) as ((Q1 & _ & _ & Q4) & _); now apply ev_canon|].
  split; [unfold D; now rewrite map_length, seq_length|].
  split; [apply Forall_map, Forall_forall; intros; apply digit_range|]. split; [apply digits_value|exact H3].
Qed.
End Out.

(** ** Errors and panics *)
Section Fail.
Context {E : Env}.

Lemma alloc_far v w n s : (1 <= n)%nat -> 2 ^ Z.of_nat (w * n) <= Z.abs v ->
  run true (alloc_from_nat (Ok v) w n) s = (Err IoError, s).
Proof.
  intros Hn Hv. unfold alloc_from_nat. destruct n as [|n]; [lia|]. cbn [rbind]. rewrite nat_to_limbs_err by lia. reflexivity.
Qed.
Lemma alloc_panic w n s : (1 <= n)%nat -> run true (alloc_from_nat Panic w n) s = (Panic, s).
Proof. intros Hn. unfold alloc_from_nat. destruct n as [|n]; [lia|]. reflexivity. Qed.

Lemma top_sub_far a b x y s : value a = Some x -> value b = Some y -> (1 <= n_limbs (bparams a))%nat ->
  2 ^ Z.of_nat (limb_width (bparams a) * n_limbs (bparams a)) <= Z.abs (x - y) ->
  fst (run true (sub a b) s) = Err IoError.
Proof.
  intros Va Vb Hn Hv. unfold sub. rewrite Va, Vb. cbn [grab rbind]. rewrite run_bind. unfold ns at 1. cbn [run].
  rewrite run_bind, alloc_far by auto. reflexivity.
Qed.

Lemma top_mult_far a b x y s : value a = Some x -> value b = Some y -> limb_width (bparams a) = limb_width (bparams b) ->
  (1 <= n_limbs (bparams a) + n_limbs (bparams b))%nat ->
  2 ^ Z.of_nat (limb_width (bparams a) * (n_limbs (bparams a) + n_limbs (bparams b))) <= Z.abs (x * y) ->
  fst (run true (mult a b) s) = Err IoError.
Proof.
  intros Va Vb HW Hn Hv. unfold mult, width_agreement. rewrite HW, Nat.eqb_refl in *. cbn [lift bind].
  rewrite Va, Vb. cbn [grab rbind]. rewrite run_bind. unfold ns at 1. cbn [run].
  rewrite run_bind, alloc_far; [reflexivity|lia|rewrite (Nat.add_comm (n_limbs (bparams b))); exact Hv].
Qed.

Lemma top_apm_far a b m r x y z s : value a = Some x -> value b = Some y -> value m = Some z -> z <> 0 ->
  limb_width (bparams b) = limb_width (bparams a) -> limb_width (bparams m) = limb_width (bparams a) ->
  limb_width (bparams r) = limb_width (bparams a) -> (1 <= length (limbs a) + length (limbs b))%nat ->
  2 ^ Z.of_nat (limb_width (bparams a) * (length (limbs a) + length (limbs b))) <= Z.abs (Z.quot (x * y) z) ->
  fst (run true (assert_product_mod a b m r) s) = Err IoError.
Proof.
  intros Va Vb Vm Hz H1 H2 H3 Hn Hv. unfold assert_product_mod, width_agreement. rewrite H1, H2, H3, !Nat.eqb_refl. cbn [lift bind].
  rewrite Va, Vb, Vm. cbn [grab rbind]. unfold bigint_div. rewrite (proj2 (Z.eqb_neq z 0)) by auto.
  rewrite run_bind. unfold ns at 1. cbn [run]. rewrite run_bind, alloc_far by auto. reflexivity.
Qed.

Lemma top_mult_mod_zero a b m x y s : value a = Some x -> value b = Some y -> value m = Some 0 ->
  limb_width (bparams a) = limb_width (bparams b) -> fst (run true (mult_mod a b m) s) = Panic.
Proof.
  intros Va Vb Vm HW. unfold mult_mod, width_agreement. rewrite HW, Nat.eqb_refl. cbn [lift bind].
  unfold n_bits. destruct (_ <? _)%nat; [|reflexivity]. cbn [lift bind]. destruct (_ <? _)%nat; [|reflexivity]. cbn [lift bind].
  unfold quotient_limbs. destruct (_ =? _)%nat; [reflexivity|]. cbn [lift bind].
  rewrite Va, Vb, Vm. cbn [grab rbind bigint_div Z.eqb]. rewrite run_bind. unfold ns at 1. cbn [run].
  rewrite run_bind, alloc_panic by (rewrite Nat.add_comm; apply le_n_S, Nat.le_0_l). reflexivity.
Qed.
Lemma top_red_mod_zero a m x s : value a = Some x -> value m = Some 0 ->
  limb_width (bparams a) = limb_width (bparams m) -> fst (run true (red_mod a m) s) = Panic.
Proof.
  intros Va Vm HW. unfold red_mod, width_agreement. rewrite HW, Nat.eqb_refl. cbn [lift bind].
  unfold n_bits. destruct (_ <? _)%nat; [|reflexivity]. cbn [lift bind].
  unfold quotient_limbs. destruct (_ =? _)%nat; [reflexivity|]. cbn [lift bind].
  rewrite Va, Vm. cbn [grab rbind bigint_div Z.eqb]. rewrite run_bind. unfold ns at 1. cbn [run].
  rewrite run_bind, alloc_panic by (rewrite Nat.add_comm; apply le_n_S, Nat.le_0_l). reflexivity.
Qed.
Lemma top_apm_zero a b m r x y s : value a = Some x -> value b = Some y -> value m = Some 0 ->
  limb_width (bparams b) = limb_width (bparams a) -> limb_width (bparams m) = limb_width (bparams a) ->
  limb_width (bparams r) = limb_width (bparams a) -> (1 <= length (limbs a) + length (limbs b))%nat ->
  fst (run true (assert_product_mod a b m r) s) = Panic.
Proof.
  intros Va Vb Vm H1 H2 H3 Hn. unfold assert_product_mod, width_agreement. rewrite H1, H2, H3, !Nat.eqb_refl. cbn [lift bind].
  rewrite Va, Vb, Vm. cbn [grab rbind bigint_div Z.eqb].
  rewrite run_bind. unfold ns at 1. cbn [run]. rewrite run_bind, alloc_panic by auto. reflexivity.
Qed.
Lemma top_divides_zero a b s : value a = Some 0 -> value b = Some 0 ->
  limb_width (bparams a) = limb_width (bparams b) -> (1 <= n_limbs (bparams b))%nat ->
  fst (run true (divides a b) s) = Panic.
Proof.
  intros Va Vb HW Hn. unfold divides, width_agreement. rewrite HW, Nat.eqb_refl. cbn [lift bind].
  rewrite Va, Vb. cbn [grab rbind bigint_div is_multiple_of Z.eqb]. rewrite run_bind. unfold ns at 1. cbn [run].
  rewrite run_bind, alloc_panic by auto. reflexivity.
Qed.

(** ** Limb widths that differ *)
Lemma disagree a b : limb_width (bparams a) <> limb_width (bparams b) -> width_agreement a b = Err Unsatisfiable.
Proof. intros H. unfold width_agreement. rewrite (proj2 (Nat.eqb_neq _ _)) by auto. reflexivity. Qed.

Lemma top_widths wit a b s : limb_width (bparams a) <> limb_width (bparams b) ->
  run wit (mult a b) s = (Err Unsatisfiable, s) /\ run wit (divides a b) s = (Err Unsatisfiable, s) /\
  run wit (red_mod a b) s = (Err Unsatisfiable, s) /\
  (forall p, run wit (verify_mult a b p) s = (Err Unsatisfiable, s) /\ run wit (verify_mult a p b) s = (Err Unsatisfiable, s)) /\
  (forall m, run wit (mult_mod a b m) s = (Err Unsatisfiable, s)) /\
  (forall m r, run wit (assert_product_mod a b m r) s = (Err Unsatisfiable, s) /\
     run wit (assert_product_mod a m b r) s = (Err Unsatisfiable, s) /\
     run wit (assert_product_mod a m r b) s = (Err Unsatisfiable, s)).
Proof.
  intros H. apply disagree in H.
  assert (HA : forall p, width_agreement a p = Err Unsatisfiable \/ exists w, width_agreement a p = Ok w).
  { intros p. unfold width_agreement. destruct (_ =? _)%nat; eauto. }
  unfold mult, divides, red_mod, verify_mult, mult_mod, assert_product_mod.
  repeat match goal with |- _ /\ _ => split | |- forall _, _ => intro end; rewrite ?H; try reflexivity.
  - destruct (HA p) as [->|[w ->]]; reflexivity.
  - destruct (HA m) as [->|[w ->]]; reflexivity.
  - destruct (HA m) as [->|[w ->]]; [reflexivity|]. destruct (HA r) as [->|[w' ->]]; reflexivity.
Qed.
End Fail.
