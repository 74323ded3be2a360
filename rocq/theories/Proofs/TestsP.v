(** Verdicts of the circuits of the project's unit tests (C83). *)
From Coq Require Import ZArith Bool String List Lia ZifyBool ZifyNat.
From Verif.Model Require Import Base CS TestCS Bellpepper Util Poly Bignat RepoTests.
From Verif.Spec Require Import Spec SpecNames.
From Verif.Proofs Require Import Field Arith Convert Limbs Wp Lc BitNum PolyP BoolP BignatEq BignatAlloc Group Carry Regroup Mult MultC MinBits Owp TopBits TopBignat1 TopBignat2 TopBignat3 Total TopTotal NamesP NamesG TopPure DecP.
Import ListNotations.
Local Open Scope string_scope.
Local Open Scope Z_scope.
Local Open Scope list_scope.
Notation length := List.length.

Section Gadgets.
Context {E : Env} {W : Wf E}.
Section Rho.
Context (rho : assignment) (one : rho ONE = 1).

Lemma fits_dec n k v : is_num rho n v -> (k <= NUM_BITS)%nat ->
  dec rho (fits_in_bits n k) (v < 2 ^ Z.of_nat (width1 k)) (fun _ => True).
Proof.
  intros (H1 & H2 & H3) Hk. split; [eapply fits_twp; eauto|]. split.
  - eapply swp_mono; [apply fits_in_bits_swp; auto|]. intros u (bs & HL & He). split; auto.
    eapply bits_range; eauto.
  - intros Hv. apply (fits_in_bits_hwp rho one n k v); auto. now split.
Qed.
Lemma decompose_dec n k v : is_num rho n v -> (k <= NUM_BITS)%nat ->
  dec rho (num_decompose n k) (v < 2 ^ Z.of_nat k) (fun _ => True).
Proof.
  intros (H1 & H2 & H3) Hk. split; [eapply decompose_twp; eauto|]. split.
  - eapply swp_mono; [apply num_decompose_swp; auto|]. intros u (bs & HL & _ & He & _). split; auto.
    eapply bits_range; eauto.
  - intros Hv. eapply hwp_mono; [apply (num_decompose_hwp rho one n k v); auto; now split|auto].
Qed.

Lemma carried_dec a b xs ys :
  let w := limb_width (bparams a) in
  let M := Z.max (max_word (bparams a)) (max_word (bparams b)) in
  is_bn rho Honest a xs -> is_bn rho Honest b ys -> in_word a xs -> in_word b ys ->
  limb_width (bparams b) = w -> (1 <= w)%nat -> length xs = length ys ->
  0 <= M -> no_wrap M w -> carry_room M w ->
  dec rho (equal_when_carried a b) (value_of (2 ^ Z.of_nat w) xs = value_of (2 ^ Z.of_nat w) ys) (fun _ => True).
Proof.
  intros w M (A1 & A2 & A3 & A4 & A5) (B1 & B2 & B3 & B4 & B5) Wa Wb HW Hw HL HM HN HR.
  pose proof (carry_room_bits _ _ HR) as Hcb. split; [|split].
  - eapply (when_carried_twp rho a b xs ys); auto; try (apply A5; reflexivity); try (apply B5; reflexivity); try (eapply ev_length; eassumption).
    eapply Forall_impl; [|exact Wb]. cbv beta. lia.
  - apply no_wrap_width1 in HN. destruct HN as [N1 N2].
    eapply swp_mono; [apply (equal_when_carried_swp rho one Honest a b xs ys); auto|]. cbv beta. tauto.
  - intros HV. destruct HR as [R1 R2]. unfold carry_width in R1, R2. rewrite <- width1_max in R1, R2.
    eapply hwp_awp. apply (equal_when_carried_awp rho one Honest a b xs ys); auto.
    + intros i Hi. rewrite HL, Nat.min_id in Hi. split; apply nth_overflow; lia.
    + intros _. repeat split; auto; [apply A5|apply B5]; auto.
Qed.
Lemma regroup_dec a b xs ys :
  let w := limb_width (bparams a) in
  let M := Z.max (max_word (bparams a)) (max_word (bparams b)) in
  is_bn rho Honest a xs -> is_bn rho Honest b ys -> in_word a xs -> in_word b ys ->
  limb_width (bparams b) = w -> (1 <= w)%nat -> length xs = length ys -> (1 <= length xs)%nat ->
  group_no_wrap M w -> group_room M w ->
  dec rho (equal_when_carried_regroup a b) (value_of (2 ^ Z.of_nat w) xs = value_of (2 ^ Z.of_nat w) ys) (fun _ => True).
Proof.
  intros w M (A1 & A2 & A3 & A4 & A5) (B1 & B2 & B3 & B4 & B5) Wa Wb HW Hw HL H1 HN HR. split; [|split].
  - eapply (regroup_twp rho a b xs ys); fold w M; auto; try (apply A5; reflexivity); try (apply B5; reflexivity).
    + lia.
    + apply HR.
    + apply HR.
    + now apply group_room_bits.
  - eapply swp_mono; [apply (regroup_swp rho one Honest a b xs ys); auto|]. cbv beta zeta. tauto.
  - intros HV. eapply hwp_awp. apply (regroup_awp rho one Honest a b xs ys); auto.
    + lia.
    + fold w M. intros i Hi. rewrite HL, Nat.min_id in Hi.
      assert (length ys <= n_groups (length ys) (group_size M w) * group_size M w)%nat.
      { destruct HR as (_ & Hg & _). now apply n_groups_fit0. }
      split; apply nth_overflow; lia.
    + intros _. split; [apply A5|apply B5]; auto.
Qed.

Lemma value_nth B : 0 < B -> forall xs ys, Forall (fun v => 0 <= v < B) xs -> Forall (fun v => 0 <= v < B) ys ->
  value_of B xs = value_of B ys <-> forall i, nth i xs 0 = nth i ys 0.
Proof.
  intros HB. induction xs as [|x xs IH]; intros ys RX RY.
  - induction ys as [|y ys IHy]; [tauto|]. inversion RY; subst. specialize (IHy H2). cbn [value_of].
    pose proof (value_of_bound B ys HB H2) as V. split.
    + cbn [value_of] in IHy. intros Hv. assert (y = 0) by nia. assert (V0 : value_of B ys = 0) by nia.
      intros [|i]; cbn [nth]; auto. destruct IHy as [IHy _]. specialize (IHy (eq_sym V0) i). destruct i; exact IHy.
    + intros Hi. pose proof (Hi 0%nat) as H0. cbn [nth] in H0. cbn [value_of] in IHy.
      rewrite <- (proj2 IHy); [lia|]. intros i. specialize (Hi (S i)). cbn [nth] in Hi. destruct i; exact Hi.
  - inversion RX; subst. destruct ys as [|y ys].
    + specialize (IH [] H2 RY). cbn [value_of] in *. pose proof (value_of_bound B xs HB H2) as V. split.
      * intros Hv. assert (x = 0) by nia. assert (V0 : value_of B xs = 0) by nia.
        intros [|i]; cbn [nth]; auto. pose proof (proj1 IH V0 i) as Hi. destruct i; exact Hi.
      * intros Hi. pose proof (Hi 0%nat) as H0. cbn [nth] in H0. rewrite (proj2 IH); [lia|].
        intros i. specialize (Hi (S i)). cbn [nth] in Hi. destruct i; exact Hi.
    + inversion RY as [|? ? Hy RY']; subst. specialize (IH ys H2 RY'). cbn [value_of]. split.
      * intros Hv. destruct (Z.div_mod_unique B (value_of B xs) (value_of B ys) x y) as [Hq Hr]; [lia|lia|lia|]. subst y.
        intros [|i]; cbn [nth]; auto. now apply IH.
      * intros Hi. pose proof (Hi 0%nat) as H0. cbn [nth] in H0. rewrite H0, (proj2 IH); auto.
        intros i. exact (Hi (S i)).
Qed.

Lemma ev_nth ls xs i : ev rho ls xs -> eqp (lc_eval rho (nth i ls lc_zero)) (nth i xs 0).
Proof.
  intros H. revert i. induction H as [|l x ls xs H1 _ IH]; intros [|i]; cbn [nth]; auto; reflexivity.
Qed.

(** Equality of numbers with digits in range. *)
Lemma equal_dec a b xs ys : is_bn rho Honest a xs -> is_bn rho Honest b ys ->
  limb_width (bparams a) = limb_width (bparams b) ->
  Forall (fun v => 0 <= v < 2 ^ Z.of_nat (limb_width (bparams a))) xs ->
  Forall (fun v => 0 <= v < 2 ^ Z.of_nat (limb_width (bparams a))) ys ->
  dec rho (equal a b) (value_of (2 ^ Z.of_nat (limb_width (bparams a))) xs = value_of (2 ^ Z.of_nat (limb_width (bparams a))) ys) (fun _ => True).
Proof.
  intros (A1 & _ & _ & A4 & _) (B1 & _ & _ & B4 & _) HW RX RY.
  eapply dec_iff; [symmetry; apply value_nth; auto; apply pow2_pos|]. split; [|split].
  - unfold equal, equal_ge.
    assert (K : forall u v, limb_width (bparams u) = limb_width (bparams v) -> twp rho (equal_ge u v) (fun _ => True)).
    { intros u v Hw. unfold equal_ge, width_agreement. rewrite Hw, Nat.eqb_refl. cbn [lift bind].
      apply twp_bind. apply twp_iterM; [intros i _; now apply twp_enforce|].
      apply twp_iterM; auto. intros i _. now apply twp_enforce. }
    destruct (Nat.ltb _ _); apply K; auto.
  - eapply swp_mono; [apply equal_swp; auto|]. cbv beta. intros u H. split; auto. intros i. specialize (H i).
    rewrite (ev_nth _ _ i A1), (ev_nth _ _ i B1) in H. apply canon_eqp; auto; apply (nth_range canon); auto using canon_0.
  - intros H. eapply hwp_awp. apply (equal_awp rho Honest); auto. intros i.
    rewrite (ev_nth _ _ i A1), (ev_nth _ _ i B1), H. reflexivity.
Qed.

Lemma full_bits_dec b vs : is_bn rho Honest b vs -> vs <> [] ->
  Forall (fun v => 0 <= v < 2 ^ Z.of_nat (limb_width (bparams b))) vs ->
  (1 <= limb_width (bparams b) < NUM_BITS)%nat ->
  dec rho (enforce_full_bits b) (2 ^ Z.of_nat (limb_width (bparams b) * length vs - 1) <= value_of (2 ^ Z.of_nat (limb_width (bparams b))) vs)
    (fun c => c = set_min_bits b (limb_width (bparams b) * length vs)).
Proof.
  intros Hb Hne HR Hw. set (w := limb_width (bparams b)) in *.
  destruct (full_pre_rho b vs Hne HR ltac:(fold w; lia) rho Hb one) as (vl & l & init & vinit & H1 & H2 & H3 & H4). fold w in H4.
  destruct Hb as (B1 & B2 & B3 & B4 & B5). destruct (B5 eq_refl) as [V1 V2].
  split; [|split].
  - unfold enforce_full_bits. rewrite V1, H1, H2, !vec_pop_snoc. cbn [unwrap rbind lift bind]. fold w.
    apply twp_bind, twp_ns. eapply twp_mono; [apply twp_hwp; exact H4|]. cbv beta. intros bv (bits & x & y & I1 & -> & I3).
    rewrite I1. cbn [lift bind]. rewrite vec_pop_snoc. cbn [unwrap rbind lift bind].
    apply twp_bind, twp_ns. unfold bit_constrain_value. apply twp_enforce. apply twp_ret. rewrite <- H2, <- B3. reflexivity.
  - eapply swp_mono; [apply (enforce_full_bits_swp rho one Honest b)|]. cbv beta. intros c (C1 & C2 & C3 & C4 & C5 & C6 & C7).
    split.
    + fold w in C7. specialize (C7 ltac:(lia)). unfold int_of in C7. fold w in C7. rewrite (ev_canon _ _ _ B1 B4) in C7.
      rewrite <- (ev_length _ _ _ B1). exact C7.
    + destruct b as [p l0 lv v], c as [p' l0' lv' v']. cbn in *. unfold set_min_bits, with_params. cbn. rewrite C1, C2, C3, C4.
      rewrite B3. reflexivity.
  - intros HV. apply (last_bit_rho b vs Hne HR ltac:(fold w; lia) _ _ H2) in HV. fold w in HV. rewrite HV in H4.
    unfold enforce_full_bits. rewrite V1, H1. rewrite H2 at 1. rewrite !vec_pop_snoc.
    cbn [unwrap rbind lift bind]. fold w. hstep. hstep. eapply hwp_mono; [exact H4|]. cbv beta. intros bv (bits & x & y & I1 & -> & I3).
    rewrite I1. cbn [lift bind]. rewrite vec_pop_snoc. cbn [unwrap rbind lift bind]. hstep. hstep.
    eapply hwp_mono; [apply bit_constrain_hwp; auto|]. cbv beta. intros _ _. hstep. rewrite <- B3. reflexivity.
Qed.

(** [mult_mod] on well-formed values. *)
Lemma mult_mod_hwp a b m A B Mm :
  let w := limb_width (bparams a) in
  let X := 2 ^ Z.of_nat w in
  let ql := q_limbs (n_bits_of a + n_bits_of b) (min_bits (bparams m)) w in
  let M := Z.max (product_word (length A) (max_word (bparams a)) (length B) (max_word (bparams b)))
     (product_word ql (X - 1) (length Mm) (max_word (bparams m)) + (X - 1)) in
  let g := group_size M w in
  let P := value_of X A * value_of X B in
  is_bn rho Honest a A -> is_bn rho Honest b B -> is_bn rho Honest m Mm ->
  in_word a A -> in_word b B -> in_word m Mm ->
  limb_width (bparams b) = w -> limb_width (bparams m) = w ->
  A <> [] -> B <> [] -> Mm <> [] -> (1 <= w)%nat -> (w < NUM_BITS)%nat ->
  0 < value_of X Mm <= 2 ^ Z.of_nat (w * length Mm) ->
  P / value_of X Mm < 2 ^ Z.of_nat (w * ql) ->
  group_room M w ->
  fits_groups w g (length A + length B - 1) (Nat.max (ql + length Mm - 1) (length Mm)) P ->
  hwp rho (mult_mod a b m) (fun qr => exists Q R, is_bn rho Honest (fst qr) Q /\ is_bn rho Honest (snd qr) R /\
    bparams (fst qr) = params_new w ql /\ bparams (snd qr) = params_new w (length Mm) /\
    Forall (fun v => 0 <= v < X) Q /\ Forall (fun v => 0 <= v < X) R /\
    value_of X Q = P / value_of X Mm /\ value_of X R = P mod value_of X Mm).
Proof.
  intros w X ql M g P Ia Ib Im Wa Wb Wm Hwb Hwm HA HB HM Hw HwN [HM0 HM1] Hq Hroom Hgr.
  apply nonempty_length in HA, HB, HM. pose proof (pow2_pos w) as HX.
  assert (CN : forall (c : bignat) l, is_bn rho Honest c l -> Forall (fun d => 0 <= d) l).
  { intros c l (_ & _ & _ & H & _). now apply canons_nonneg. }
  assert (P0 : 0 <= P).
  { apply Z.mul_nonneg_nonneg; apply value_of_nonneg; eauto; unfold X; lia. }
  pose proof (Z.mod_pos_bound P (value_of X Mm) HM0) as Hmod.
  pose proof (Z.div_pos P (value_of X Mm) P0 HM0) as Hdiv.
  destruct (digits_facts w ql (P / value_of X Mm) ltac:(lia)) as (LQ & RQ & VQ).
  destruct (digits_facts w (length Mm) (P mod value_of X Mm) ltac:(lia)) as (LR & RR & VR).
  set (Q := map (digit w (P / value_of X Mm)) (seq 0 ql)) in *.
  set (R := map (digit w (P mod value_of X Mm)) (seq 0 (length Mm))) in *.
  assert (HV : P = value_of X Q * value_of X Mm + value_of X R).
  { unfold X at 1 3. rewrite VQ, VR. pose proof (Z.div_mod P (value_of X Mm)). lia. }
  assert (HLQ : (1 <= length Q)%nat) by (rewrite LQ; unfold ql, q_limbs; apply Nat.le_add_l).
  eapply hwp_mono.
  - eapply hwp_awp. pose proof (mult_mod_awp rho one Honest a b m A B Mm Q R) as H. cbv zeta in H. unfold mod_word in H.
    rewrite (ev_length _ _ _ (proj1 Ia)), (ev_length _ _ _ (proj1 Ib)), (ev_length _ _ _ (proj1 Im)), LQ in H. fold w in H. fold X in H. fold M in H.
    apply H; auto; clear H.
    + apply (sides_zero_fits _ _ _ _ P); [apply Hroom|rewrite convs_length; lia|rewrite rsum_length, convs_length; lia|..].
      * apply convs_nonneg; eauto.
      * apply rsum_nonneg; [apply convs_nonneg|]; eauto; eapply ranges_nonneg; eassumption.
      * apply convs_value.
      * rewrite rsum_value, convs_value. symmetry. exact HV.
      * rewrite rsum_length, !convs_length, LQ, LR. exact Hgr.
    + intros _. unfold X at 1. rewrite VR. lia.
  - cbv beta. intros [q r] (Q1 & Q2 & _ & _ & Q5 & Q6). cbn [fst snd] in *. exists Q, R. rewrite LR in Q6. auto 10.
Qed.
End Rho.
End Gadgets.

Section Circuits.
Context {E : Env} {W : Wf E}.

(** ** Names *)
Hint Resolve n_num_alloc n_fits n_num_decompose n_alloc_from_nat n_alloc_from_limbs n_decompose n_carried n_regroup
  n_full_bits n_mult_mod n_equal n_product : nm.
Lemma n_decomp n k : tidy (number_bit_decomp n k).
Proof. unfold number_bit_decomp. td. Qed.
Lemma n_bn_decomp n w k : tidy (bignat_bit_decomp n w k).
Proof. unfold bignat_bit_decomp. td. Qed.
Lemma n_carrier a b mw w n : tidy (carrier a b mw w n).
Proof. unfold carrier. td. Qed.
Lemma n_mult_mod_circuit w na nb nm full a b m q r : tidy (mult_mod_circuit w na nb nm full a b m q r).
Proof. unfold mult_mod_circuit. destruct full; td. Qed.

(** ** NumberBitDecomp *)
Lemma alloc_num_hwp rho n : 0 <= n -> hwp rho (num_alloc (unwrap (nat_to_f n))) (fun x => is_num rho x (fmk n)).
Proof.
  intros Hn. eapply hwp_awp. apply (num_alloc_awp rho Honest _ (fmk n)).
  - intros _. now apply nat_to_f_unwrap.
  - intros x v Hx Hv. rewrite nat_to_f_unwrap in Hv by auto. split; [|split; [apply fmk_canon|]].
    + exact Hv.
    + cbn [n_lc]. rewrite lc_eval_var, Hx. reflexivity.
Qed.

Lemma top_decomp_verdict n k : 0 <= n -> (k <= NUM_BITS)%nat ->
  verdict (number_bit_decomp n k) = Ok (n mod modulus <? 2 ^ Z.of_nat k).
Proof.
  intros Hn Hk. apply (dec_verdict _ (fmk n < 2 ^ Z.of_nat (width1 k) /\ fmk n < 2 ^ Z.of_nat k /\ True)).
  - apply tidy_well_named, n_decomp.
  - intros rho one. unfold number_bit_decomp. eapply dec_step; [apply hwp_ns, alloc_num_hwp; auto|]. intros x Hx.
    eapply dec_bind; [apply dec_ns, fits_dec; eauto|]. intros _ _.
    eapply dec_bind; [apply dec_ns, decompose_dec; eauto|]. intros _ _. now apply dec_ret.
  - fold (fmk n). rewrite Z.ltb_lt. split; [tauto|]. intros H. split; auto.
    eapply Z.lt_le_trans; [exact H|]. apply pow2_le. unfold width1. lia.
Qed.
Lemma top_decomp_negative n k : n < 0 -> verdict (number_bit_decomp n k) = Panic.
Proof.
  intros Hn. rewrite verdict_run by apply tidy_well_named, n_decomp. unfold number_bit_decomp, num_alloc.
  rewrite nat_to_f_neg by auto. reflexivity.
Qed.

(** ** BigNatBitDecomp *)
Lemma alloc_nat_hwp rho v w n : (1 <= n)%nat -> (1 <= w < NUM_BITS)%nat -> 0 <= v < 2 ^ Z.of_nat (w * n) ->
  hwp rho (alloc_from_nat (Ok v) w n) (fun b => is_bn rho Honest b (map (digit w v) (seq 0 n)) /\ bparams b = params_new w n).
Proof.
  intros Hn Hw Hv. destruct (digits_facts w n v Hv) as (LD & RD & VD).
  eapply hwp_awp. apply (alloc_from_nat_awp rho Honest (Ok v) w n (map (digit w v) (seq 0 n))); auto.
  - eapply (range_canon w); [lia|exact RD].
  - intros _. split; auto. split; [lia|]. eauto.
Qed.

Lemma top_bn_decomp_verdict n w k : 0 <= n < 2 ^ Z.of_nat (w * k) -> (1 <= w < NUM_BITS)%nat -> (1 <= k)%nat ->
  verdict (bignat_bit_decomp n w k) = Ok true.
Proof.
  intros Hn Hw Hk. destruct (digits_facts w k n Hn) as (LD & RD & VD). apply (dec_verdict _ True); [apply tidy_well_named, n_bn_decomp| |tauto].
  intros rho one. unfold bignat_bit_decomp. eapply dec_step; [apply hwp_ns, alloc_nat_hwp; auto|]. intros x [Hx Px].
  apply (dec_step _ _ _ _ (fun _ => True)); [|intros _ _; now apply dec_ret]. apply hwp_ns. eapply hwp_mono; [eapply hwp_awp; apply (bn_decompose_awp rho one Honest x _ Hx)|].
  - rewrite Px. cbn [params_new limb_width]. eapply Forall_impl; [|exact RD]. cbv beta. lia.
  - rewrite Px. cbn [params_new limb_width]. lia.
  - cbv beta. auto.
Qed.

Lemma top_quickcheck n w : (200 < NUM_BITS)%nat -> 0 <= n ->
  big_nat_can_decompose n w = if (Nat.leb 4 w && Nat.leb w 200)%bool then Some (Ok true) else None.
Proof.
  intros HB Hn. unfold big_nat_can_decompose.
  destruct (Nat.leb_spec 4 w), (Nat.leb_spec w 200), (Nat.ltb_spec w 4), (Nat.ltb_spec 200 w); cbn [andb orb]; try lia; auto.
  f_equal. apply top_bn_decomp_verdict; [|lia|].
  - split; auto. unfold quickcheck_limbs. destruct (Z.eqb_spec n 0) as [->|]; [apply pow2_pos|].
    assert (Hq : 0 <= (n - 1) / Z.of_nat w) by (apply Z.div_pos; lia).
    pose proof (Z.div_mod (n - 1) (Z.of_nat w) ltac:(lia)). pose proof (Z.mod_pos_bound (n - 1) (Z.of_nat w) ltac:(lia)).
    rewrite Nat2Z.inj_mul, Z2Nat.id by lia. set (q := (n - 1) / Z.of_nat w) in *.
    apply Z.le_lt_trans with (Z.of_nat w * (q + 1)); [lia|]. apply Z.pow_gt_lin_r; nia.
  - unfold quickcheck_limbs. destruct (Z.eqb_spec n 0); [lia|].
    assert (Hq : 0 <= (n - 1) / Z.of_nat w) by (apply Z.div_pos; lia). lia.
Qed.

(** ** Carrier *)
Lemma alloc_limbs_hwp rho vs mw w : (1 <= length vs)%nat -> Forall (fun v => 0 <= v <= mw) vs -> mw < modulus ->
  hwp rho (alloc_from_limbs (Ok vs) (Some mw) w (length vs))
    (fun b => is_bn rho Honest b vs /\ in_word b vs /\ bparams b = mkParams 0 mw w (length vs)).
Proof.
  intros Hn HR HM.
  assert (HC : Forall canon vs) by (eapply Forall_impl; [|exact HR]; cbv beta; unfold canon; lia).
  eapply hwp_awp. apply (alloc_from_limbs_awp rho Honest (Ok vs) (Some mw) w (length vs) vs); auto.
  - intros l Hl. injection Hl as <-. exact HC.
  - intros b Hb Pb. split; auto. split; auto. red. rewrite Pb. exact HR.
Qed.

Lemma map_usize vs mw : mw < modulus -> Forall (fun v => 0 <= v <= mw) vs -> map usize_to_f vs = vs.
Proof.
  intros HM. induction 1 as [|v vs H _ IH]; cbn [map]; auto. f_equal; auto. unfold usize_to_f, from_u64. apply fmk_small. lia.
Qed.

Lemma top_carrier_verdict a b mw w n : (1 <= n)%nat -> (1 <= w)%nat -> length a = n -> length b = n ->
  Forall (fun v => 0 <= v <= mw) a -> Forall (fun v => 0 <= v <= mw) b -> mw < modulus ->
  no_wrap mw w -> carry_room mw w -> group_no_wrap mw w -> group_room mw w ->
  verdict (carrier a b mw w n) = Ok (value_of (2 ^ Z.of_nat w) (rev a) =? value_of (2 ^ Z.of_nat w) (rev b)).
Proof.
  intros Hn Hw La Lb Ra Rb HM N1 R1 N2 R2.
  assert (H0 : 0 <= mw) by (destruct a; [cbn in La; lia|]; inversion Ra; lia).
  apply (dec_verdict _ (value_of (2 ^ Z.of_nat w) (rev a) = value_of (2 ^ Z.of_nat w) (rev b) /\
    value_of (2 ^ Z.of_nat w) (rev a) = value_of (2 ^ Z.of_nat w) (rev b)));
    [apply tidy_well_named, n_carrier| |rewrite Z.eqb_eq; tauto].
  intros rho one. unfold carrier. rewrite La, Lb, !Nat.eqb_refl. cbn [negb].
  apply Forall_rev in Ra, Rb. rewrite !(map_usize _ mw) by auto.
  assert (La' : length (rev a) = n) by now rewrite rev_length. assert (Lb' : length (rev b) = n) by now rewrite rev_length.
  set (xs := rev a) in *. set (ys := rev b) in *. clearbody xs ys.
  eapply dec_step; [apply hwp_ns; rewrite <- La' at 1; apply alloc_limbs_hwp; auto; lia|]. intros x (Ix & Wx & Px).
  eapply dec_step; [apply hwp_ns; rewrite <- Lb' at 1; apply alloc_limbs_hwp; auto; lia|]. intros y (Iy & Wy & Py).
  pose proof (carried_dec rho one x y xs ys) as H1. pose proof (regroup_dec rho one x y xs ys) as H2.
  cbv zeta in H1, H2. rewrite Px, Py in H1, H2. cbn [max_word limb_width] in H1, H2. rewrite Z.max_id in H1, H2.
  eapply dec_bind; [apply dec_ns, H1; auto; lia|]. intros _ _. apply dec_ns, H2; auto; lia.
Qed.
Lemma top_carrier_lengths a b mw w n : length a <> n \/ length b <> n ->
  verdict (carrier a b mw w n) = Err Unsatisfiable.
Proof.
  intros H. rewrite verdict_run by apply tidy_well_named, n_carrier. unfold carrier.
  destruct (Nat.eqb_spec (length a) n); cbn [negb]; [|reflexivity].
  destruct (Nat.eqb_spec (length b) n); cbn [negb]; [|reflexivity]. lia.
Qed.

(** ** MultMod *)
Lemma params_word w n : (1 <= w)%nat -> max_word (params_new w n) = 2 ^ Z.of_nat w - 1.
Proof. intros H. cbn [params_new max_word]. apply int_with_n_ones_spec. Qed.

Lemma full_bit_count b w n : (1 <= w)%nat -> (1 <= n)%nat -> bparams b = params_new w n -> n_bits_of b = (w * n)%nat.
Proof.
  intros Hw Hn P. unfold n_bits_of. rewrite P, params_word by lia. cbn [params_new limb_width n_limbs].
  rewrite bigint_bits_ones by lia. destruct n; [lia|]. rewrite Nat.mul_succ_r. f_equal. f_equal. lia.
Qed.
Lemma top_mult_mod_verdict (w na nb nm : nat) (full : bool) (a b m q r : Z) :
  let X := 2 ^ Z.of_nat w in
  let ql := q_limbs (w * na + w * nb) (if full then w * nm else 0) w in
  let M := Z.max (product_word na (X - 1) nb (X - 1)) (product_word ql (X - 1) nm (X - 1) + (X - 1)) in
  (1 <= w < NUM_BITS)%nat -> (1 <= na)%nat -> (1 <= nb)%nat -> (1 <= nm)%nat -> (nm < na + nb)%nat ->
  0 <= a < 2 ^ Z.of_nat (w * na) -> 0 <= b < 2 ^ Z.of_nat (w * nb) -> 0 < m < 2 ^ Z.of_nat (w * nm) ->
  0 <= q < 2 ^ Z.of_nat (w * (na + nb - nm)) -> 0 <= r < 2 ^ Z.of_nat (w * nm) ->
  a * b / m < 2 ^ Z.of_nat (w * ql) -> group_room M w ->
  fits_groups w (group_size M w) (na + nb - 1) (Nat.max (ql + nm - 1) nm) (a * b) ->
  verdict (mult_mod_circuit w na nb nm full a b m q r) =
    Ok ((negb full || (2 ^ Z.of_nat (w * nm - 1) <=? m)) && (q =? a * b / m) && (r =? (a * b) mod m)).
Proof.
  intros X ql M Hw Hna Hnb Hnm Hnq Ha Hb Hm Hq Hr HQ HG HF.
  destruct (digits_facts w na a Ha) as (LA & RA & VA). destruct (digits_facts w nb b Hb) as (LB & RB & VB).
  destruct (digits_facts w nm m ltac:(lia)) as (LM & RM & VM). destruct (digits_facts w (na + nb - nm) q Hq) as (LQ & RQ & VQ).
  destruct (digits_facts w nm r Hr) as (LR & RR & VR).
  apply (dec_verdict _ ((if full then 2 ^ Z.of_nat (w * nm - 1) <= m else True) /\ a * b / m = q /\ (a * b) mod m = r)).
  { apply tidy_well_named, n_mult_mod_circuit. }
  2:{ rewrite !andb_true_iff, orb_true_iff, !Z.eqb_eq, Z.leb_le. destruct full; cbn [negb]; intuition congruence. }
  intros rho one. unfold mult_mod_circuit.
  eapply dec_step; [apply hwp_ns, alloc_nat_hwp; auto|]. intros xa [Ia Pa].
  eapply dec_step; [apply hwp_ns, alloc_nat_hwp; auto|]. intros xb [Ib Pb].
  eapply dec_step; [apply hwp_ns, alloc_nat_hwp; auto; lia|]. intros xm0 [Im0 Pm0].
  set (A := map (digit w a) (seq 0 na)) in *. set (B := map (digit w b) (seq 0 nb)) in *.
  set (Mm := map (digit w m) (seq 0 nm)) in *. set (Qd := map (digit w q) (seq 0 (na + nb - nm))) in *.
  set (Rd := map (digit w r) (seq 0 nm)) in *.
  assert (NA : A <> []) by (intros C; rewrite C in LA; cbn in LA; lia).
  assert (NB : B <> []) by (intros C; rewrite C in LB; cbn in LB; lia).
  assert (NM : Mm <> []) by (intros C; rewrite C in LM; cbn in LM; lia).
  apply (dec_bind _ _ _ _ _ (fun xm : bignat => is_bn rho Honest xm Mm /\
     bparams xm = mkParams (if full then w * nm else 0)%nat (X - 1) w nm)).
  { destruct full.
    - apply dec_ns. eapply dec_mono; [|eapply dec_iff; [|apply (full_bits_dec rho one xm0 Mm Im0 NM)]].
      + cbv beta. intros c ->. destruct Im0 as (I1 & I2 & I3 & I4 & I5). rewrite Pm0. cbn [params_new limb_width].
        rewrite LM. split.
        * split; [exact I1|]. split; [exact I2|]. unfold set_min_bits, with_params. cbn [bparams n_limbs limb_width]. rewrite Pm0 in *. auto.
        * unfold set_min_bits, with_params. cbn [bparams]. rewrite Pm0, params_word by lia. reflexivity.
      + rewrite Pm0. cbn [params_new limb_width]. rewrite LM, VM. tauto.
      + rewrite Pm0. exact RM.
      + rewrite Pm0. exact Hw.
    - apply dec_ret. split; auto. rewrite Pm0. unfold X. rewrite <- (params_word w nm) by lia. reflexivity. }
  intros xm [Im Pm]. unfold usub. rewrite (proj2 (Nat.leb_le nm (na + nb))) by lia. cbn [lift bind].
  eapply dec_step; [apply hwp_ns, alloc_nat_hwp; auto; lia|]. intros xq [Iq Pq].
  eapply dec_step; [apply hwp_ns, alloc_nat_hwp; auto|]. intros xr [Ir Pr]. fold Qd in Iq. fold Rd in Ir.
  pose proof (mult_mod_hwp rho one xa xb xm A B Mm Ia Ib Im) as H. cbv zeta in H.
  assert (Na : n_bits_of xa = (w * na)%nat) by (apply full_bit_count; auto; lia).
  assert (Nb : n_bits_of xb = (w * nb)%nat) by (apply full_bit_count; auto; lia).
  rewrite Na, Nb in H. unfold in_word in H. rewrite Pa, Pb, Pm in H. rewrite !params_word in H by lia.
  cbn [params_new limb_width min_bits max_word n_limbs] in H. fold X in H. fold ql in H. rewrite LA, LB, LM in H. fold M in H.
  fold X in VA, VB, VM, VQ, VR, RA, RB, RM, RQ, RR. rewrite VA, VB, VM in H.
  eapply dec_step.
  { assert (K : forall l, Forall (fun v => 0 <= v < X) l -> Forall (fun v => 0 <= v <= X - 1) l).
    { intros l. apply Forall_impl. intros; lia. }
    apply hwp_ns, H; clear H; [apply K, RA|apply K, RB|apply K, RM|reflexivity|reflexivity|exact NA|exact NB|exact NM|lia|lia|lia|exact HQ|exact HG|exact HF]. }
  clear H. intros [xqa xra] (Qv & Rv & H1 & H2 & P1 & P2 & G1 & G2 & E1 & E2). cbn [fst snd] in *.
  pose proof (equal_dec rho xqa xq Qv Qd H1 Iq) as D1. pose proof (equal_dec rho xra xr Rv Rd H2 Ir) as D2.
  rewrite P1, Pq in D1. rewrite P2, Pr in D2. cbn [params_new limb_width] in D1, D2. fold X in D1, D2.
  rewrite E1, VQ in D1. rewrite E2, VR in D2.
  eapply dec_bind; [apply dec_ns, D1; auto|]. intros _ _. apply dec_ns, D2; auto.
Qed.

(** ** PolynomialMultiplier *)
Lemma n_poly a b : tidy (polynomial_multiplier a b).
Proof.
  unfold polynomial_multiplier, alloc_coeffs. eapply tidy_of.
  eapply named_bind; [apply (named_mapM _ _ _ fst [("coeff_a ", "")]); [|reflexivity|apply nodup_combine]; intros p _; body| |shelve].
  intro ca.
  eapply named_bind; [apply (named_mapM _ _ _ fst [("coeff_b ", "")]); [|reflexivity|apply nodup_combine]; intros p _; body| |shelve].
  intro cb. nm1.
Unshelve. all: reflexivity.
Qed.

Lemma alloc_coeffs_hwp rho pre xs : hwp rho (alloc_coeffs pre xs) (fun ls => ev rho ls xs).
Proof.
  unfold alloc_coeffs.
  apply (hwp_mapM _ _ (fun (p : nat * Z) l => eqp (lc_eval rho l) (snd p))).
  - intros p _. hstep. hstep; [reflexivity|]. intros x Hx. hstep. rewrite lc_eval_var, Hx. reflexivity.
  - intros ls H. assert (HS : xs = map snd (combine (seq 0 (length xs)) xs)).
    { clear. generalize 0%nat. induction xs as [|x xs IH]; intros k; cbn [length seq combine map snd]; auto. f_equal. apply IH. }
    rewrite HS. unfold ev. clear HS. induction H; cbn [map]; constructor; auto.
Qed.

Lemma top_poly_verdict a b : a <> [] -> b <> [] -> Forall canon a -> Forall canon b ->
  verdict (polynomial_multiplier a b) = Ok true.
Proof.
  intros Ha Hb Ca Cb. apply nonempty_length in Ha, Hb. apply (dec_verdict _ True); [apply tidy_well_named, n_poly| |tauto].
  intros rho one. unfold polynomial_multiplier.
  eapply dec_step; [apply alloc_coeffs_hwp|]. intros ca Ea. eapply dec_step; [apply alloc_coeffs_hwp|]. intros cb Eb.
  apply (dec_step _ _ _ _ (fun _ => True)); [|intros _ _; now apply dec_ret]. apply hwp_ns. eapply hwp_mono.
  - eapply hwp_awp. apply (alloc_product_awp rho Honest (mkPoly ca (Some a)) (mkPoly cb (Some b)) a b); cbn [p_coeffs p_vals]; auto.
  - auto.
Qed.
Lemma top_poly_empty : verdict (polynomial_multiplier [] []) = Panic.
Proof. reflexivity. Qed.
End Circuits.
