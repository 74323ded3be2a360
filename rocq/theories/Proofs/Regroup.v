(** src/mp/bignat.rs: comparison after regrouping limbs (C31). *)
From Coq Require Import ZArith Bool List Lia Setoid Morphisms ZifyBool ZifyNat.
From Verif.Model Require Import Base CS Bellpepper Util Poly Bignat.
From Verif.Spec Require Import Spec.
From Verif.Proofs Require Import Field Arith Convert Limbs Wp Lc BitNum PolyP BoolP BignatEq BignatAlloc Group Carry.
Import ListNotations.
Local Open Scope Z_scope.

Lemma width1_max n : width1 n = Nat.max 1 n.
Proof. unfold width1. lia. Qed.

Lemma log2_up_mul_pow2' a n : 0 < a -> Z.log2_up (a * 2 ^ Z.of_nat n) = Z.log2_up a + Z.of_nat n.
Proof. intros. rewrite Z.log2_up_mul_pow2 by lia. lia. Qed.

Section Regroup.
Context {E : Env} {W : Wf E}.

Lemma group_word_ones M w : group_word M w = ones (2 ^ Z.of_nat w) (group_size M w) * M.
Proof.
  unfold group_word, ones. rewrite Z.mul_comm. f_equal. apply sum_n_ext. intros. apply pow2_mul.
Qed.

Lemma CAPACITY_pow : 2 ^ Z.of_nat CAPACITY <= modulus.
Proof. apply modulus_bits. Qed.

(** When the bound leaves room below the carry width, merging keeps the carry width and nothing
    wraps. *)
Lemma ones_ge B g : 1 <= B -> (1 <= g)%nat -> B ^ Z.of_nat (g - 1) <= ones B g.
Proof.
  intros HB Hg. destruct g as [|g]; [lia|]. unfold ones. cbn [sum_n].
  replace (S g - 1)%nat with g by lia. enough (0 <= sum_n g (fun t => B ^ Z.of_nat t)) by lia.
  apply sum_n_nonneg. intros. apply Z.pow_nonneg. lia.
Qed.

Section Room.
Context (M : Z) (w : nat).
Let cb := carry_bits_f64 M w.
Let g := group_size M w.
Context (HM : 0 < M) (Hw : (1 <= w)%nat) (Hcb : (1 <= cb)%nat)
  (Hx : cb = carry_bits_exact M w)
  (Hroom : 2 * M <= (2 ^ Z.of_nat w - 1) * 2 ^ Z.of_nat cb).

Lemma group_word_room : 2 * group_word M w <= (2 ^ Z.of_nat (w * g) - 1) * 2 ^ Z.of_nat cb.
Proof.
  rewrite group_word_ones. fold g.
  pose proof (ones_spec (2 ^ Z.of_nat w) g) as HO. rewrite <- pow2_mul in HO. rewrite <- HO.
  pose proof (ones_nonneg (2 ^ Z.of_nat w) g (pow2_pos w)). nia.
Qed.

Lemma group_carry_bits : (1 <= g)%nat -> carry_bits_exact (group_word M w) (w * g) = cb.
Proof.
  intros Hg. assert (H1 : 2 <= 2 ^ Z.of_nat w) by (change 2 with (2 ^ Z.of_nat 1); now apply pow2_le).
  pose proof group_word_room as HR.
  assert (HG : M * 2 ^ Z.of_nat (w * (g - 1)) <= group_word M w).
  { rewrite group_word_ones. fold g. pose proof (ones_ge (2 ^ Z.of_nat w) g ltac:(lia) Hg). rewrite pow2_mul.
    rewrite Z.mul_comm. apply Z.mul_le_mono_nonneg_r; lia. }
  unfold carry_bits_exact. fold cb. 
  assert (Hpos : 0 < 2 * group_word M w) by (pose proof (pow2_pos (w * (g - 1))); nia).
  assert (Hup : Z.log2_up (2 * group_word M w) <= Z.of_nat (w * g + cb)).
  { rewrite <- (Z.log2_up_pow2 (Z.of_nat (w * g + cb))) by lia. apply Z.log2_up_le_mono.
    rewrite pow2_add. pose proof (pow2_pos cb). nia. }
  assert (Hlow : Z.log2_up (2 * M) + Z.of_nat (w * (g - 1)) <= Z.log2_up (2 * group_word M w)).
  { rewrite <- log2_up_mul_pow2' by lia. apply Z.log2_up_le_mono. lia. }
  assert (HL : Z.log2_up (2 * M) = Z.of_nat w + Z.of_nat cb).
  { unfold carry_bits_exact in Hx. lia. }
  assert (w * (g - 1) + w = w * g)%nat by (destruct g; [lia|]; nia). lia.
Qed.

Lemma room_no_wrap : (cb <= CAPACITY)%nat -> (1 <= g)%nat ->
  carry_bits_f64 (group_word M w) (w * g) = carry_bits_exact (group_word M w) (w * g) ->
  group_no_wrap M w.
Proof.
  intros HC Hg Hxg. unfold group_no_wrap, no_wrap. fold g.
  assert (HW : carry_width (group_word M w) (w * g) = cb).
  { unfold carry_width. rewrite Hxg, group_carry_bits by auto. lia. }
  rewrite HW. pose proof group_word_room as HR. pose proof CAPACITY_pow as HP.
  assert (HX : 2 ^ Z.of_nat (w * g) * 2 ^ Z.of_nat cb <= 2 ^ Z.of_nat CAPACITY).
  { rewrite <- pow2_add. apply pow2_le. unfold g, group_size. fold cb.
    pose proof (Nat.mul_div_le (CAPACITY - cb) w ltac:(lia)). lia. }
  rewrite Z.mul_sub_distr_r in HR. split; lia.
Qed.
End Room.

Lemma group_limbs_inv b g b' : group_limbs b g = Ok b' ->
  let n := n_groups (length (limbs b)) g in
  let B := 2 ^ Z.of_nat (limb_width (bparams b)) in
  (1 <= g)%nat /\
  bparams b' = mkParams (min_bits (bparams b)) (ones_at (limb_width (bparams b)) g * max_word (bparams b))
                   (limb_width (bparams b) * g) n /\
  (forall rho vs, ev rho (limbs b) vs -> ev rho (limbs b') (group_digits B g n vs)).
Proof.
  intros H n B.
  assert (Hg : (1 <= g)%nat).
  { destruct g; [|lia]. rewrite group_limbs_panic in H by auto. discriminate. }
  split; auto. destruct (Nat.eq_dec (length (limbs b)) 0) as [HL|HL].
  { apply length_zero_iff_nil in HL. destruct (group_limbs_nil b g b' HL H) as (-> & _ & L & _ & P).
    unfold n. rewrite HL, L, P. split; [reflexivity|]. intros rho vs Hv. inversion Hv. subst. constructor. }
  assert (HL' : (1 <= length (limbs b))%nat) by lia.
  set (c := mkBigNat (limbs b) None (value b) (bparams b)).
  destruct (group_limbs_ok c g HL' Hg I) as (c' & H1 & H2 & H3 & H4 & H5 & H6 & H7).
  assert (HE : limbs b' = limbs c' /\ bparams b' = bparams c').
  { unfold group_limbs in H, H1. unfold c in H1. cbn [limbs limb_values value bparams] in H1.
    destruct (group_count (length (limbs b)) g) as [k| |]; cbn [rbind] in H, H1; try discriminate.
    destruct (match limb_values b with None => _ | Some _ => _ end); cbn [rbind] in H; try discriminate.
    destruct (group_loop _ _ _ _ _ (limbs b) _); cbn [rbind] in H, H1; try discriminate.
    injection H as <-. injection H1 as <-. split; reflexivity. }
  destruct HE as [-> ->]. split; [exact H2|]. exact H6.
Qed.

Lemma ones_at_max w g a b : (1 <= w)%nat -> Z.max (ones_at w g * a) (ones_at w g * b) = ones_at w g * Z.max a b.
Proof.
  intros Hw. rewrite ones_at_spec by auto. pose proof (ones_nonneg (2 ^ Z.of_nat w) g (pow2_pos w)).
  rewrite Z.mul_max_distr_nonneg_l; auto.
Qed.

Lemma sum_n_zero_inv n f : (forall i, (i < n)%nat -> 0 <= f i) -> sum_n n f = 0 ->
  forall i, (i < n)%nat -> f i = 0.
Proof.
  induction n; cbn [sum_n]; intros Hf H i Hi; [lia|].
  assert (0 <= sum_n n f) by (apply sum_n_nonneg; intros; apply Hf; lia).
  assert (0 <= f n) by (apply Hf; lia).
  destruct (Nat.eq_dec i n) as [->|]; [lia|]. apply IHn; try lia. intros; apply Hf; lia.
Qed.
Lemma group_zero l w g M i : Forall (fun d => 0 <= d <= M) l -> (1 <= g)%nat ->
  nth (i / g) (group_digits (2 ^ Z.of_nat w) g (n_groups (length l) g) l) 0 = 0 -> nth i l 0 = 0.
Proof.
  intros HF Hg H. destruct (Nat.lt_ge_cases i (length l)) as [Hi|]; [|now apply nth_overflow].
  assert (HI : (i / g < n_groups (length l) g)%nat).
  { pose proof (n_groups_fit (length l) g ltac:(lia) Hg). apply Nat.div_lt_upper_bound; lia. }
  rewrite nth_group_digits in H by auto. unfold group_digit in H.
  assert (HN : forall j, 0 <= nth j l 0).
  { intros j. apply (nth_range (fun d => 0 <= d)); [lia|]. eapply Forall_impl; [|exact HF]. cbv beta. lia. }
  pose proof (pow2_pos w) as HP.
  assert (HT : forall t, (t < g)%nat -> 0 <= nth (i / g * g + t) l 0 * (2 ^ Z.of_nat w) ^ Z.of_nat t).
  { intros t _. apply Z.mul_nonneg_nonneg; auto. apply Z.pow_nonneg. lia. }
  pose proof (sum_n_zero_inv _ _ HT H
    (i mod g)%nat (Nat.mod_upper_bound i g ltac:(lia))) as H0.
  cbv beta in H0. replace (i / g * g + i mod g)%nat with i in H0 by (rewrite (Nat.mul_comm _ g); apply Nat.div_mod_eq).
  apply Z.mul_eq_0 in H0. destruct H0 as [H0|H0]; auto.
  exfalso. revert H0. apply Z.pow_nonzero; [pose proof (pow2_pos w); lia|lia].
Qed.

Section Rho.
Context (rho : assignment) (one : rho ONE = 1).

Lemma regroup_w0 md a b Q : limb_width (bparams a) = 0%nat ->
  swp md rho (equal_when_carried_regroup a b) Q.
Proof.
  intros Hw. unfold equal_when_carried_regroup. do 2 sstep. intros w' Hw'. unfold width_agreement in Hw'.
  destruct (_ =? _)%nat; [|discriminate]. injection Hw' as <-. do 2 sstep. intros room _.
  do 2 sstep. intros g Hg. rewrite Hw in Hg. discriminate.
Qed.

Lemma regroup_swp md a b xs ys :
  let w := limb_width (bparams a) in
  let M := Z.max (max_word (bparams a)) (max_word (bparams b)) in
  let g := group_size M w in
  ev rho (limbs a) xs -> ev rho (limbs b) ys ->
  Forall (fun d => 0 <= d <= max_word (bparams a)) xs ->
  Forall (fun d => 0 <= d <= max_word (bparams b)) ys -> group_no_wrap M w ->
  swp md rho (equal_when_carried_regroup a b) (fun _ => limb_width (bparams b) = w /\
    (1 <= g)%nat /\ (1 <= w)%nat /\
    value_of (2 ^ Z.of_nat w) xs = value_of (2 ^ Z.of_nat w) ys /\
    forall i, (Nat.min (n_groups (length xs) g) (n_groups (length ys) g) * g <= i)%nat ->
      nth i xs 0 = 0 /\ nth i ys 0 = 0).
Proof.
  intros w M gs Ha Hb HX HY HN. unfold equal_when_carried_regroup.
  do 2 sstep. intros w' Hw'. unfold width_agreement in Hw'.
  destruct (Nat.eqb_spec (limb_width (bparams a)) (limb_width (bparams b))) as [HW|]; [|discriminate].
  injection Hw' as <-. fold w. fold M. do 2 sstep. intros room Hroom. 
  do 2 sstep. intros g Hg. destruct (Nat.eqb_spec w 0); [discriminate|].
  assert (Hgs : g = group_size M w).
  { unfold usub in Hroom. destruct (Nat.leb_spec (carry_bits_f64 M w) CAPACITY); [|discriminate].
    injection Hroom as <-. injection Hg as <-. reflexivity. }
  clear Hg Hroom. do 2 sstep. intros ga Hga. do 2 sstep. intros gb Hgb.
  destruct (group_limbs_inv _ _ _ Hga) as (Hg1 & Pa & Ea). specialize (Ea _ _ Ha).
  destruct (group_limbs_inv _ _ _ Hgb) as (_ & Pb & Eb). specialize (Eb _ _ Hb).
  fold w in Pa, Ea. rewrite <- HW in Pb, Eb. fold w in Pb, Eb.
  rewrite (ev_length _ _ _ Ha) in *. rewrite (ev_length _ _ _ Hb) in *.
  assert (HM : Z.max (max_word (bparams ga)) (max_word (bparams gb)) = group_word M w).
  { rewrite Pa, Pb. cbn [max_word]. rewrite ones_at_max by lia. fold M.
    rewrite group_word_ones, ones_at_spec by lia. now rewrite Hgs. }
  destruct HN as [N1 N2]. unfold carry_width in N1, N2. rewrite <- Hgs in N1, N2.
  rewrite <- width1_max in N1, N2. sstep.
  eapply swp_mono; [eapply (equal_when_carried_swp rho one md ga gb)|]; eauto.
  - rewrite Pa. cbn [max_word]. rewrite ones_at_spec by lia. apply group_digits_bound'; auto. apply pow2_pos.
  - rewrite Pb. cbn [max_word]. rewrite ones_at_spec by lia. apply group_digits_bound'; auto. apply pow2_pos.
  - rewrite Pa. cbn [limb_width]. nia.
  - rewrite HM, Pa. cbn [limb_width]. exact N1.
  - rewrite HM, Pa. cbn [limb_width]. exact N2.
  - cbv beta. rewrite Pa. cbn [limb_width]. intros _ (HV & HZ & _). split; auto. rewrite pow2_mul in HV.
    rewrite !value_of_group in HV by (apply n_groups_fit0; auto).
    subst gs. rewrite <- Hgs. split; [exact Hg1|]. split; [lia|]. split; [exact HV|].
    intros i Hi. rewrite !group_digits_length in HZ.
    destruct (HZ (i / g)%nat) as [Z1 Z2].
    { apply Nat.div_le_lower_bound; lia. }
    split; [exact (group_zero xs w g _ i HX Hg1 Z1)|exact (group_zero ys w g _ i HY Hg1 Z2)].
Qed.

(** The auxiliary values of the comparison. *)
Definition regroup_aux (M : Z) (w : nat) (xs ys : list Z) : list Z :=
  let g := group_size M w in
  let na := n_groups (length xs) g in
  let nb := n_groups (length ys) g in
  carry_aux (group_word M w) (2 ^ Z.of_nat (w * g)) (carry_bits_f64 (group_word M w) (w * g))
    (Nat.min na nb) (group_digits (2 ^ Z.of_nat w) g na xs) (group_digits (2 ^ Z.of_nat w) g nb ys).

Lemma regroup_awp md a b xs ys :
  let w := limb_width (bparams a) in
  let M := Z.max (max_word (bparams a)) (max_word (bparams b)) in
  let B := 2 ^ Z.of_nat w in
  let g := group_size M w in
  let n := Nat.min (n_groups (length xs) g) (n_groups (length ys) g) in
  limb_width (bparams a) = limb_width (bparams b) ->
  ev rho (limbs a) xs -> ev rho (limbs b) ys -> lv_ok a -> lv_ok b ->
  Forall (fun d => 0 <= d <= max_word (bparams a)) xs ->
  Forall (fun d => 0 <= d <= max_word (bparams b)) ys ->
  (1 <= w)%nat -> (1 <= length xs)%nat -> (1 <= length ys)%nat ->
  group_room M w ->
  (forall i, (n * g <= i)%nat -> nth i xs 0 = 0 /\ nth i ys 0 = 0) ->
  value_of B xs = value_of B ys ->
  (md = Honest -> limb_values a = Some xs /\ limb_values b = Some ys) ->
  awp md rho (equal_when_carried_regroup a b) (regroup_aux M w xs ys) (fun _ => True).
Proof.
  intros w M B g n HW Ha Hb Hla Hlb HX HY Hw Lx Ly (Hcb & Hg & (HC & Hcap) & HMp) Hz HV Hh. fold g in Hg, HC, Hcap.
  unfold equal_when_carried_regroup.
  apply awp_bind_nil. eapply awp_lift.
  { unfold width_agreement. rewrite HW, Nat.eqb_refl. reflexivity. }
  fold w in HW. rewrite <- HW. fold M.
  apply awp_bind_nil. eapply awp_lift.
  { unfold usub. rewrite (proj2 (Nat.leb_le _ _)) by auto. reflexivity. }
  apply awp_bind_nil. eapply awp_lift.
  { rewrite (proj2 (Nat.eqb_neq w 0)) by lia. reflexivity. }
  fold (group_size M w). fold g.
  pose proof (ev_length _ _ _ Ha) as LA. pose proof (ev_length _ _ _ Hb) as LB.
  destruct (group_limbs_ok a g ltac:(lia) Hg Hla) as (ga & A1 & A2 & A3 & A4 & A5 & A6 & A7).
  destruct (group_limbs_ok b g ltac:(lia) Hg Hlb) as (gb & B1 & B2 & B3 & B4 & B5 & B6 & B7).
  apply awp_bind_nil. eapply awp_lift; [exact A1|].
  apply awp_bind_nil. eapply awp_lift; [exact B1|].
  specialize (A6 _ _ Ha). specialize (B6 _ _ Hb).
  fold w in A2, A6, A7. fold B in A6, A7. rewrite <- HW in B2, B6, B7. fold B in B6, B7.
  rewrite LA in *. rewrite LB in *.
  assert (HM : Z.max (max_word (bparams ga)) (max_word (bparams gb)) = group_word M w).
  { rewrite A2, B2. cbn [max_word]. rewrite ones_at_max by lia. fold M.
    rewrite group_word_ones, ones_at_spec by lia. reflexivity. }
  assert (Hlw : limb_width (bparams ga) = (w * g)%nat) by (rewrite A2; reflexivity).
  assert (Mxa : 0 <= max_word (bparams a)).
  { destruct xs; [simpl in Lx; lia|]. inversion HX; subst. lia. }
  assert (Mxb : 0 <= max_word (bparams b)).
  { destruct ys; [simpl in Ly; lia|]. inversion HY; subst. lia. }
  assert (BX : Forall (fun d => 0 <= d <= max_word (bparams ga)) (group_digits B g (n_groups (length xs) g) xs)).
  { rewrite A2. cbn [max_word]. rewrite ones_at_spec by lia. apply group_digits_bound; auto. apply pow2_pos. }
  assert (BY : Forall (fun d => 0 <= d <= max_word (bparams gb)) (group_digits B g (n_groups (length ys) g) ys)).
  { rewrite B2. cbn [max_word]. rewrite ones_at_spec by lia. apply group_digits_bound; auto. apply pow2_pos. }
  apply awp_ns. unfold regroup_aux. fold B g. fold n.
  pose proof (equal_when_carried_awp rho one md ga gb (group_digits B g (n_groups (length xs) g) xs) (group_digits B g (n_groups (length ys) g) ys)) as HE.
  cbv zeta in HE. rewrite HM, Hlw, !group_digits_length in HE. fold n in HE.
  apply HE; auto; clear HE.
  - rewrite B2. reflexivity.
  - nia.
  - intros i Hi.
    assert (G : forall l k, (forall j, (n * g <= j)%nat -> nth j l 0 = 0) -> nth i (group_digits B g k l) 0 = 0).
    { intros l k Hl. destruct (Nat.lt_ge_cases i k).
      - rewrite nth_group_digits by auto. unfold group_digit. transitivity (sum_n g (fun _ => 0)); [|apply sum_n_zero].
        apply sum_n_ext. intros t Ht. rewrite Hl by nia. reflexivity.
      - apply nth_overflow. rewrite group_digits_length. auto. }
    split; apply G; intros j Hj; apply Hz; auto.
  - rewrite pow2_mul. fold B. rewrite !value_of_group by (apply n_groups_fit; auto). exact HV.
  - unfold carry_width in HC. rewrite width1_max. exact HC.
  - intros Hm. destruct (Hh Hm) as (Va & Vb).
    assert (CX : Forall canon (group_digits B g (n_groups (length xs) g) xs)).
    { eapply Forall_impl; [|exact BX]. cbv beta. unfold canon. intros. lia. }
    assert (CY : Forall canon (group_digits B g (n_groups (length ys) g) ys)).
    { eapply Forall_impl; [|exact BY]. cbv beta. unfold canon. intros. lia. }
    rewrite (A7 _ Va), (B7 _ Vb), !map_fmk_canon by auto.
    unfold carry_width in Hcap. rewrite width1_max. auto.
Qed.
End Rho.

End Regroup.
