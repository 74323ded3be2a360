(** Final forms of the lemmas about carried comparison, multiplication, division, subtraction and minimum. *)
From Coq Require Import ZArith Bool List Lia Setoid Morphisms ZifyBool ZifyNat.
From Verif.Model Require Import Base CS Bellpepper Util Poly Bignat Gadget.
From Verif.Spec Require Import Spec.
From Verif.Proofs Require Import Field Arith Convert Limbs Wp Lc BitNum PolyP BoolP BignatEq BignatAlloc Group Carry Regroup Mult MultC TopBits TopPoly TopBignat1 PureOps TopPure Owp MinBits MuxP SubP.
Import ListNotations.
Local Open Scope Z_scope.

Section Top.
Context {E : Env} {W : Wf E}.

Lemma honest_run {A} (m : prog A) s ys (Q : assignment -> A -> Prop) : good s ->
  (forall rho, agree s rho -> rho ONE = 1 -> awp Honest rho m ys (Q rho)) ->
  exists a s', run true m s = (Ok a, s') /\ good s' /\
    (forall rho, agree s' rho -> agree s rho) /\ (forall rho, agree s' rho -> Q rho a).
Proof. intros G H. apply hwp_run; auto. intros rho Ha one. eapply hwp_awp; eauto. Qed.

Lemma bignat_for_ev rho0 s b vs rho : bignat_for rho0 s b vs -> same_on s rho rho0 -> rho ONE = 1 -> ev rho (limbs b) vs.
Proof.
  intros (_ & Hc & _) Hso one. clear -Hc Hso one W. induction Hc; constructor; auto. eapply carries_for_eqp; eauto.
Qed.
Lemma bignat_for_canon rho0 s b vs : good_for rho0 s -> bignat_for rho0 s b vs -> Forall canon vs.
Proof.
  intros G (_ & Hc & _). pose proof (same_on_refl s rho0) as R. pose proof (G _ R) as G0.
  clear -Hc R G0 W. induction Hc as [|l v ls vs H _ IH]; constructor; auto.
  rewrite <- (H rho0 R (proj1 G0)). apply fmk_canon.
Qed.
Lemma bignat_for_is rho0 s b vs rho wit : good_for rho0 s -> bignat_for rho0 s b vs -> same_on s rho rho0 -> rho ONE = 1 ->
  is_bn rho (md_of wit) b vs /\ in_word b vs.
Proof.
  intros G Hb Hso one. pose proof (bignat_for_ev _ _ _ _ _ Hb Hso one) as He. pose proof (bignat_for_canon _ _ _ _ G Hb) as HC.
  destruct Hb as ([S1 S2] & _ & Hw). split.
  - split; auto. split; auto. split; [rewrite S1; exact (ev_length _ _ _ He)|]. split; auto. apply md_of_not.
  - unfold in_word. rewrite Forall_forall in *. intros v Hv. specialize (Hw v Hv). specialize (HC v Hv). unfold canon in HC. lia.
Qed.
Lemma bignat_for_wires rho0 s b vs rho : good_for rho0 s -> bignat_for rho0 s b vs -> same_on s rho rho0 -> rho ONE = 1 ->
  wires rho (limbs b) = vs.
Proof. intros G Hb Hso one. apply ev_canon; [eapply bignat_for_ev; eauto|eapply bignat_for_canon; eauto]. Qed.
Lemma wires_length rho ls : length (wires rho ls) = length ls.
Proof. apply map_length. Qed.
Lemma shaped_n rho b : well_shaped b -> n_limbs (bparams b) = length (wires rho (limbs b)).
Proof. intros [H _]. rewrite wires_length. exact H. Qed.
Lemma wires_is rho b vs : Forall canon vs -> ev rho (limbs b) vs -> wires rho (limbs b) = vs.
Proof. intros H1 H2. now apply ev_canon. Qed.

Lemma rets_alloc_nat f w n : rets (alloc_from_nat f w n) (fun b => bparams b = params_new w n /\ length (limbs b) = n).
Proof.
  unfold alloc_from_nat. apply rets_bind, rets_mapM. intros bs Hb.
  set (r := match captured bs with [] => _ | _ => _ end). destruct r as [v lvs].
  cbn [rets bparams limbs]. split; auto. unfold xs_lcs. now rewrite map_length, Hb, seq_length.
Qed.

(** ** equal_when_carried *)
Lemma carry_offset_at M B i : 0 <= M -> 2 <= B -> carry_offset M B i = extra_at M B i.
Proof.
  intros HM HB. induction i; cbn [carry_offset extra_at]; auto. rewrite IHi.
  destruct (extra_range M B i HM HB). symmetry. apply Z.quot_div_nonneg; lia.
Qed.
Lemma running_carry_at M B xs ys i : 0 <= M -> 2 <= B -> running_carry M B xs ys i = carry_at M B xs ys i.
Proof.
  intros HM HB. unfold running_carry, carry_at, partial_diff. rewrite carry_offset_at by auto. do 2 f_equal.
  apply sum_n_ext. intros j _. ring.
Qed.
Lemma pow2_two w : (1 <= w)%nat -> 2 <= 2 ^ Z.of_nat w.
Proof. intros. change 2 with (2 ^ Z.of_nat 1) at 1. now apply pow2_le. Qed.

Lemma no_wrap_width1 M w : no_wrap M w ->
  2 ^ Z.of_nat (width1 (carry_bits_f64 M w)) + 2 * M <= modulus /\
  2 ^ Z.of_nat w * 2 ^ Z.of_nat (width1 (carry_bits_f64 M w)) <= modulus.
Proof. unfold no_wrap, carry_width. now rewrite width1_max. Qed.

Lemma top_ewc_sound wit a b s u s' rho :
  let w := limb_width (bparams a) in
  let M := Z.max (max_word (bparams a)) (max_word (bparams b)) in
  run wit (equal_when_carried a b) s = (Ok u, s') -> sat rho s' ->
  bounded rho a -> bounded rho b -> (1 <= w)%nat -> no_wrap M w ->
  int_of rho a = int_of rho b.
Proof.
  intros w M Hr Hs Ba Bb Hw Hn. apply no_wrap_width1 in Hn. destruct Hn as [N1 N2].
  pose proof (swp_run_any _ _ _ _ _ _ _ Hr Hs (equal_when_carried_swp rho (proj1 Hs) Any a b _ _
    (ev_wires rho (limbs a)) (ev_wires rho (limbs b)) (proj1 (bounded_in_word _ _) Ba) (proj1 (bounded_in_word _ _) Bb) Hw N1 N2)) as H.
  cbv beta in H. destruct H as (H & _ & HW & _). unfold int_of. rewrite <- HW. exact H.
Qed.

Lemma top_ewc_error wit a b s : limb_width (bparams a) <> limb_width (bparams b) ->
  run wit (equal_when_carried a b) s = (Err Unsatisfiable, s) /\
  run wit (equal_when_carried_regroup a b) s = (Err Unsatisfiable, s).
Proof.
  intros H. apply Nat.eqb_neq in H. unfold equal_when_carried, equal_when_carried_regroup, width_agreement. rewrite H. split; reflexivity.
Qed.

Lemma top_ewc_exact wit a b xs ys s u s' rho0 :
  let w := limb_width (bparams a) in
  let M := Z.max (max_word (bparams a)) (max_word (bparams b)) in
  let n := Nat.min (length xs) (length ys) in
  good_for rho0 s -> bignat_for rho0 s a xs -> bignat_for rho0 s b ys ->
  run wit (equal_when_carried a b) s = (Ok u, s') -> (1 <= w)%nat -> no_wrap M w ->
  ((exists rho, same_on s rho rho0 /\ sat rho s') <->
   value_of (2 ^ Z.of_nat w) xs = value_of (2 ^ Z.of_nat w) ys /\
   (forall i, (n <= i)%nat -> nth i xs 0 = 0 /\ nth i ys 0 = 0) /\
   (forall i, (i < n)%nat -> 0 <= running_carry M (2 ^ Z.of_nat w) xs ys i < 2 ^ Z.of_nat (carry_width M w))).
Proof.
  intros w M n G Ha Hb Hr Hw Hn. apply no_wrap_width1 in Hn. destruct Hn as [N1 N2].
  pose proof (pow2_two w Hw) as HB.
  assert (Hcar : forall i, (i < n)%nat -> running_carry M (2 ^ Z.of_nat w) xs ys i = carry_at M (2 ^ Z.of_nat w) xs ys i).
  { intros i Hi. apply running_carry_at; auto. unfold M. pose proof (same_on_refl s rho0) as R.
    destruct (bignat_for_is _ _ _ _ _ wit G Ha R (proj1 (G _ R))) as [_ Wa]. unfold in_word in Wa.
    destruct xs as [|x xs]; [cbn in *; lia|]. inversion Wa; subst. lia. }
  assert (Hwd : limb_width (bparams a) = limb_width (bparams b)).
  { destruct (Nat.eq_dec (limb_width (bparams a)) (limb_width (bparams b))) as [|D]; auto.
    destruct (top_ewc_error wit a b s D) as [D1 _]. congruence. }
  unfold carry_width. rewrite <- width1_max. split.
  - intros (rho & Hso & Hs).
    destruct (bignat_for_is _ _ _ _ _ wit G Ha Hso (proj1 Hs)) as [(Ea & _) Wa].
    destruct (bignat_for_is _ _ _ _ _ wit G Hb Hso (proj1 Hs)) as [(Eb & _) Wb].
    pose proof (swp_run_any _ _ _ _ _ _ _ Hr Hs (equal_when_carried_swp rho (proj1 Hs) Any a b xs ys Ea Eb Wa Wb Hw N1 N2)) as H.
    cbv beta in H. destruct H as (H1 & H2 & _ & H4). split; auto. split; auto.
    intros i Hi. rewrite Hcar by auto. apply H4; auto.
  - intros (HV & HZ & HC).
    destruct (awp_run wit (equal_when_carried a b) s rho0 (carry_aux M (2 ^ Z.of_nat w) (carry_bits_f64 M w) n xs ys) (fun _ _ => True) u s' G) as (rho & H1 & H2 & _); [|exact Hr|].
    { intros rho Hso one.
      destruct (bignat_for_is _ _ _ _ _ wit G Ha Hso one) as [(Ea & _) Wa].
      destruct (bignat_for_is _ _ _ _ _ wit G Hb Hso one) as [(Eb & _) Wb].
      apply equal_when_carried_awp'; auto.
      - intros i Hi. fold w M. rewrite <- Hcar by auto. apply HC; auto.
      - apply md_of_not. }
    exists rho. split; auto. apply H2, same_on_refl.
Qed.

Lemma top_ewc_complete a b xs ys s :
  let w := limb_width (bparams a) in
  let M := Z.max (max_word (bparams a)) (max_word (bparams b)) in
  good s -> bignat_at s a xs -> bignat_at s b ys -> limb_width (bparams b) = w -> (1 <= w)%nat ->
  value_of (2 ^ Z.of_nat w) xs = value_of (2 ^ Z.of_nat w) ys ->
  (forall i, (Nat.min (length xs) (length ys) <= i)%nat -> nth i xs 0 = 0 /\ nth i ys 0 = 0) ->
  carry_room M w -> exists s', run true (equal_when_carried a b) s = (Ok tt, s') /\ good s'.
Proof.
  intros w M G Ha Hb HW Hw HV HZ [R1 R2].
  destruct (honest_run (equal_when_carried a b) s (carry_aux M (2 ^ Z.of_nat w) (carry_bits_f64 M w) (Nat.min (length xs) (length ys)) xs ys)
    (fun _ _ => True) G) as ([] & s' & Hr & Hg & _).
  { intros rho Hag one. destruct (bignat_at_is _ _ _ _ Ha Hag one) as [(A1 & A2 & A3 & A4 & A5) Wa].
    destruct (bignat_at_is _ _ _ _ Hb Hag one) as [(B1 & B2 & B3 & B4 & B5) Wb].
    unfold carry_width in R1, R2. rewrite <- width1_max in R1, R2.
    apply equal_when_carried_awp; auto. intros _. repeat split; auto; [apply A5|apply B5]; auto. }
  eauto.
Qed.

(** Equal numbers of the same limb count. *)
Lemma top_ewc_complete_same a b xs ys s :
  let w := limb_width (bparams a) in
  let M := Z.max (max_word (bparams a)) (max_word (bparams b)) in
  good s -> bignat_at s a xs -> bignat_at s b ys -> limb_width (bparams b) = w -> (1 <= w)%nat ->
  length xs = length ys -> value_of (2 ^ Z.of_nat w) xs = value_of (2 ^ Z.of_nat w) ys ->
  carry_room M w -> exists s', run true (equal_when_carried a b) s = (Ok tt, s') /\ good s'.
Proof.
  intros w M G Ha Hb HW Hw HL HV HR. eapply top_ewc_complete; eauto.
  intros i Hi. rewrite HL, Nat.min_id in Hi. split; apply nth_overflow; lia.
Qed.

(** ** equal_when_carried_regroup *)
Lemma top_regroup_sound wit a b s u s' rho :
  let w := limb_width (bparams a) in
  let M := Z.max (max_word (bparams a)) (max_word (bparams b)) in
  run wit (equal_when_carried_regroup a b) s = (Ok u, s') -> sat rho s' ->
  bounded rho a -> bounded rho b -> group_no_wrap M w -> int_of rho a = int_of rho b.
Proof.
  intros w M Hr Hs Ba Bb Hn.
  pose proof (swp_run_any _ _ _ _ _ _ _ Hr Hs (regroup_swp rho (proj1 Hs) Any a b _ _
    (ev_wires rho (limbs a)) (ev_wires rho (limbs b)) (proj1 (bounded_in_word _ _) Ba) (proj1 (bounded_in_word _ _) Bb) Hn)) as H.
  cbv beta zeta in H. destruct H as (HW & _ & _ & H & _). unfold int_of. rewrite HW. exact H.
Qed.

Lemma top_regroup_exact wit a b xs ys s u s' rho0 :
  let w := limb_width (bparams a) in
  let M := Z.max (max_word (bparams a)) (max_word (bparams b)) in
  let g := group_size M w in
  let n := Nat.min (n_groups (length xs) g) (n_groups (length ys) g) in
  good_for rho0 s -> bignat_for rho0 s a xs -> bignat_for rho0 s b ys ->
  run wit (equal_when_carried_regroup a b) s = (Ok u, s') -> xs <> [] -> ys <> [] -> (1 <= w)%nat ->
  group_no_wrap M w -> group_room M w ->
  ((exists rho, same_on s rho rho0 /\ sat rho s') <->
   value_of (2 ^ Z.of_nat w) xs = value_of (2 ^ Z.of_nat w) ys /\
   (forall i, (n * g <= i)%nat -> nth i xs 0 = 0 /\ nth i ys 0 = 0)).
Proof.
  intros w M g n G Ha Hb Hr Hx Hy Hw Hn Hroom.
  assert (Hwd : limb_width (bparams a) = limb_width (bparams b)).
  { destruct (Nat.eq_dec (limb_width (bparams a)) (limb_width (bparams b))) as [|D]; auto.
    destruct (top_ewc_error wit a b s D) as [_ D1]. congruence. }
  split.
  - intros (rho & Hso & Hs).
    destruct (bignat_for_is _ _ _ _ _ wit G Ha Hso (proj1 Hs)) as [(Ea & _) Wa].
    destruct (bignat_for_is _ _ _ _ _ wit G Hb Hso (proj1 Hs)) as [(Eb & _) Wb].
    pose proof (swp_run_any _ _ _ _ _ _ _ Hr Hs (regroup_swp rho (proj1 Hs) Any a b xs ys Ea Eb Wa Wb Hn)) as H.
    cbv beta zeta in H. destruct H as (_ & _ & _ & H1 & H2). split; auto.
  - intros (HV & HZ).
    destruct (awp_run wit (equal_when_carried_regroup a b) s rho0 (regroup_aux M w xs ys) (fun _ _ => True) u s' G) as (rho & H1 & H2 & _); [|exact Hr|].
    { intros rho Hso one.
      destruct (bignat_for_is _ _ _ _ _ wit G Ha Hso one) as [(Ea & La & _) Wa].
      destruct (bignat_for_is _ _ _ _ _ wit G Hb Hso one) as [(Eb & Lb & _) Wb].
      apply regroup_awp; auto.
      - destruct xs; [congruence|cbn; lia].
      - destruct ys; [congruence|cbn; lia].
      - apply md_of_not. }
    exists rho. split; auto. apply H2, same_on_refl.
Qed.

Lemma top_regroup_complete a b xs ys s :
  let w := limb_width (bparams a) in
  let M := Z.max (max_word (bparams a)) (max_word (bparams b)) in
  let g := group_size M w in
  let n := Nat.min (n_groups (length xs) g) (n_groups (length ys) g) in
  good s -> bignat_at s a xs -> bignat_at s b ys -> limb_width (bparams b) = w -> (1 <= w)%nat ->
  xs <> [] -> ys <> [] ->
  value_of (2 ^ Z.of_nat w) xs = value_of (2 ^ Z.of_nat w) ys ->
  (forall i, (n * g <= i)%nat -> nth i xs 0 = 0 /\ nth i ys 0 = 0) ->
  group_room M w -> exists s', run true (equal_when_carried_regroup a b) s = (Ok tt, s') /\ good s'.
Proof.
  intros w M g n G Ha Hb HW Hw Hx Hy HV HZ HR.
  destruct (honest_run (equal_when_carried_regroup a b) s (regroup_aux M w xs ys) (fun _ _ => True) G) as ([] & s' & Hr & Hg & _).
  { intros rho Hag one. destruct (bignat_at_is _ _ _ _ Ha Hag one) as [(A1 & A2 & A3 & A4 & A5) Wa].
    destruct (bignat_at_is _ _ _ _ Hb Hag one) as [(B1 & B2 & B3 & B4 & B5) Wb].
    apply regroup_awp; auto.
    - destruct xs; [congruence|cbn; lia].
    - destruct ys; [congruence|cbn; lia].
    - intros _. split; [apply A5|apply B5]; auto. }
  eauto.
Qed.

(** When the carry width is computed exactly and has room, both conditions hold. *)
Lemma top_roomy M w :
  let cb := carry_bits_f64 M w in
  let g := group_size M w in
  0 < M -> (1 <= w)%nat -> (1 <= cb <= CAPACITY)%nat -> (1 <= g)%nat ->
  cb = carry_bits_exact M w ->
  carry_bits_f64 (group_word M w) (w * g) = carry_bits_exact (group_word M w) (w * g) ->
  2 * M <= (2 ^ Z.of_nat w - 1) * 2 ^ Z.of_nat cb ->
  group_no_wrap M w /\ group_room M w.
Proof.
  intros cb g HM Hw [Hc1 Hc2] Hg Hx Hxg HR.
  assert (HN : group_no_wrap M w) by (apply room_no_wrap; auto).
  split; auto. split; auto. split; auto.
  pose proof (group_carry_bits M w HM Hw Hc1 Hx HR Hg) as HC.
  assert (HE : carry_width (group_word M w) (w * group_size M w) = cb).
  { unfold carry_width. unfold g in Hxg. rewrite Hxg, HC. fold cb. lia. }
  split.
  - split; [|rewrite HE; auto]. rewrite HE. apply group_word_room; auto.
  - destruct HN as [N1 _]. pose proof (pow2_pos (carry_width (group_word M w) (w * group_size M w))).
    assert (0 <= group_word M w).
    { unfold group_word. apply Z.mul_nonneg_nonneg; [lia|]. apply sum_n_nonneg. intros. apply Z.pow_nonneg. lia. }
    lia.
Qed.

(** ** mult *)
Lemma range_bounded rho b w n : bparams b = params_new w n -> range_wires rho w b -> bounded rho b.
Proof. intros Hp H. unfold bounded. rewrite Hp, params_word. eapply Forall_impl; [|exact H]. cbv beta. lia. Qed.

Lemma top_mult_sound wit a b s p s' rho :
  let w := limb_width (bparams a) in
  let M := Z.max (product_word (length (limbs a)) (max_word (bparams a)) (length (limbs b)) (max_word (bparams b))) (2 ^ Z.of_nat w - 1) in
  run wit (mult a b) s = (Ok p, s') -> sat rho s' ->
  well_shaped a -> well_shaped b -> bounded rho a -> bounded rho b ->
  Z.of_nat (length (limbs a) + length (limbs b)) <= modulus -> group_no_wrap M w ->
  int_of rho p = int_of rho a * int_of rho b /\
  Forall (fun v => 0 <= v < 2 ^ Z.of_nat w) (wires rho (limbs p)) /\
  length (limbs p) = (length (limbs a) + length (limbs b))%nat /\ limb_width (bparams p) = w.
Proof.
  intros w M Hr Hs Sa Sb Ba Bb HL Hn.
  pose proof (mult_swp rho (proj1 Hs) Any a b _ _ (ev_wires rho (limbs a)) (ev_wires rho (limbs b))
    (proj1 (bounded_in_word _ _) Ba) (proj1 (bounded_in_word _ _) Bb) (shaped_n rho a Sa) (shaped_n rho b Sb)) as H.
  cbv zeta in H. unfold mult_word in H. rewrite (proj1 Sa), (proj1 Sb), !wires_length in H.
  pose proof W as [_ W2 _ _].
  pose proof (swp_run_any _ _ _ _ _ _ _ Hr Hs (H ltac:(lia) Hn)) as K. cbv beta in K.
  destruct K as (K1 & K2 & K3 & K4 & K5 & _). split; auto. rewrite <- K5. unfold int_of. rewrite K1. reflexivity.
Qed.

Lemma top_mult_exact wit a b A B s p s' rho0 :
  let w := limb_width (bparams a) in
  let M := Z.max (product_word (length A) (max_word (bparams a)) (length B) (max_word (bparams b))) (2 ^ Z.of_nat w - 1) in
  let g := group_size M w in
  let P := value_of (2 ^ Z.of_nat w) A * value_of (2 ^ Z.of_nat w) B in
  good_for rho0 s -> bignat_for rho0 s a A -> bignat_for rho0 s b B ->
  run wit (mult a b) s = (Ok p, s') -> A <> [] -> B <> [] -> (1 <= w)%nat -> (w < NUM_BITS)%nat ->
  Z.of_nat (length A + length B) <= modulus -> group_no_wrap M w -> group_room M w ->
  ((exists rho, same_on s rho rho0 /\ sat rho s') <->
   P < 2 ^ Z.of_nat (w * (n_groups (length A + length B - 1) g * g)) /\ P < 2 ^ Z.of_nat (w * (length A + length B))).
Proof.
  intros w M g P G Ha Hb Hr HA HB Hw HwN HL Hn Hroom.
  pose proof (same_on_refl s rho0) as R0. pose proof W as [_ W2 _ _].
  pose proof (bignat_for_is _ _ _ _ _ wit G Ha R0 (proj1 (G _ R0))) as [(_ & _ & NA & CA & _) _].
  pose proof (bignat_for_is _ _ _ _ _ wit G Hb R0 (proj1 (G _ R0))) as [(_ & _ & NB & CB & _) _].
  assert (HLA : (1 <= length A)%nat) by (destruct A; [congruence|cbn; lia]).
  assert (HLB : (1 <= length B)%nat) by (destruct B; [congruence|cbn; lia]).
  split.
  - intros (rho & Hso & Hs).
    destruct (bignat_for_is _ _ _ _ _ wit G Ha Hso (proj1 Hs)) as [(Ea & _) Wa].
    destruct (bignat_for_is _ _ _ _ _ wit G Hb Hso (proj1 Hs)) as [(Eb & _) Wb].
    pose proof (mult_swp rho (proj1 Hs) Any a b A B Ea Eb Wa Wb NA NB) as H. cbv zeta in H. unfold mult_word in H. rewrite NA, NB in H.
    pose proof (swp_run_any _ _ _ _ _ _ _ Hr Hs (H ltac:(lia) Hn)) as K. cbv beta in K.
    destruct K as (K1 & K2 & K3 & K4 & K5 & K6). unfold P, w. rewrite K5. split; auto.
    pose proof (range_value _ _ K4) as HR. rewrite wires_length, K3 in HR. unfold int_of. rewrite K2. apply HR.
  - intros [HP HP2].
    assert (Hwd : limb_width (bparams b) = w).
    { destruct (Nat.eqb_spec (limb_width (bparams a)) (limb_width (bparams b))) as [|D]; auto.
      exfalso. apply Nat.eqb_neq in D. unfold mult, width_agreement in Hr. rewrite D in Hr. discriminate. }
    assert (P0 : 0 <= P).
    { unfold P. apply Z.mul_nonneg_nonneg; apply value_of_nonneg; try (pose proof (pow2_pos w); lia).
      - eapply Forall_impl; [|exact CA]. unfold canon; cbv beta; lia.
      - eapply Forall_impl; [|exact CB]. unfold canon; cbv beta; lia. }
    set (D := map (digit w P) (seq 0 (length A + length B))).
    assert (VD : value_of (2 ^ Z.of_nat w) D = P). { unfold D. rewrite digits_value. apply Z.mod_small. lia. }
    destruct (awp_run wit (mult a b) s rho0 (mult_aux w M A B D) (fun _ _ => True) p s' G) as (rho & H1 & H2 & _); [|exact Hr|].
    { intros rho Hso one.
      destruct (bignat_for_is _ _ _ _ _ wit G Ha Hso one) as [Ia Wa].
      destruct (bignat_for_is _ _ _ _ _ wit G Hb Hso one) as [Ib Wb].
      pose proof (mult_awp rho one (md_of wit) a b A B D) as H. cbv zeta in H. unfold mult_word in H. rewrite NA, NB in H.
      eapply awp_mono; [apply H; auto; clear H|auto].
      - unfold D. now rewrite map_length, seq_length.
      - apply digits_range.
      - fold w. rewrite VD. exact HP. }
    exists rho. split; auto. apply H2, same_on_refl.
Qed.

Lemma top_mult_complete a b A B s :
  let w := limb_width (bparams a) in
  let M := Z.max (product_word (length A) (max_word (bparams a)) (length B) (max_word (bparams b))) (2 ^ Z.of_nat w - 1) in
  let g := group_size M w in
  let P := value_of (2 ^ Z.of_nat w) A * value_of (2 ^ Z.of_nat w) B in
  good s -> bignat_at s a A -> bignat_at s b B -> limb_width (bparams b) = w ->
  A <> [] -> B <> [] -> (1 <= w)%nat -> (w < NUM_BITS)%nat ->
  Forall (fun v => v < 2 ^ Z.of_nat w) A -> Forall (fun v => v < 2 ^ Z.of_nat w) B ->
  group_room M w -> P < 2 ^ Z.of_nat (w * (n_groups (length A + length B - 1) g * g)) ->
  exists p s' D, run true (mult a b) s = (Ok p, s') /\ good s' /\ bignat_at s' p D /\ value p = Some P /\
    length D = (length A + length B)%nat /\ Forall (fun v => 0 <= v < 2 ^ Z.of_nat w) D.
Proof.
  intros w M g P G Ha Hb Hwd HA HB Hw HwN RA RB Hroom HP.
  assert (HLA : (1 <= length A)%nat) by (destruct A; [congruence|cbn; lia]).
  assert (HLB : (1 <= length B)%nat) by (destruct B; [congruence|cbn; lia]).
  assert (RA' : Forall (fun v => 0 <= v < 2 ^ Z.of_nat w) A).
  { pose proof (bignat_at_canon _ _ _ Ha) as HC. rewrite Forall_forall in *. intros v Hv. specialize (HC v Hv). specialize (RA v Hv). unfold canon in HC. lia. }
  assert (RB' : Forall (fun v => 0 <= v < 2 ^ Z.of_nat w) B).
  { pose proof (bignat_at_canon _ _ _ Hb) as HC. rewrite Forall_forall in *. intros v Hv. specialize (HC v Hv). specialize (RB v Hv). unfold canon in HC. lia. }
  assert (P0 : 0 <= P < 2 ^ Z.of_nat (w * (length A + length B))).
  { pose proof (range_value w A RA') as H1. pose proof (range_value w B RB') as H2. rewrite Nat.mul_add_distr_l, Nat2Z.inj_add, Z.pow_add_r by lia. unfold P. nia. }
  set (D := map (digit w P) (seq 0 (length A + length B))).
  assert (VD : value_of (2 ^ Z.of_nat w) D = P). { unfold D. rewrite digits_value. apply Z.mod_small. lia. }
  assert (LD : length D = (length A + length B)%nat) by (unfold D; now rewrite map_length, seq_length).
  assert (RD : Forall (fun v => 0 <= v < 2 ^ Z.of_nat w) D) by apply digits_range.
  destruct (honest_run (mult a b) s (mult_aux w M A B D) (fun rho p => is_bn rho Honest p D /\ in_word p D /\ limb_width (bparams p) = w) G) as (p & s' & Hr & Hg & _ & HQ).
  { intros rho Hag one. destruct (bignat_at_is _ _ _ _ Ha Hag one) as [Ia Wa].
    destruct (bignat_at_is _ _ _ _ Hb Hag one) as [Ib Wb].
    assert (NA : n_limbs (bparams a) = length A) by apply Ia. assert (NB : n_limbs (bparams b) = length B) by apply Ib.
    pose proof (mult_awp rho one Honest a b A B D) as H. cbv zeta in H. unfold mult_word in H. rewrite NA, NB in H.
    eapply awp_mono; [apply H; auto; clear H|].
    - fold w. rewrite VD. exact HP.
    - cbv beta. intros p (H1 & H2 & H3). split; auto. split; auto. rewrite H3. reflexivity. }
  exists p, s', D. split; auto. split; auto. split.
  - apply is_bignat_at; [intros rho Hrho; apply HQ; auto|apply (HQ _ (agree_asg s'))].
  - split; [|auto]. destruct (HQ _ (agree_asg s')) as (H1 & _ & H3). rewrite (is_bn_value _ _ _ _ H1 eq_refl), H3, VD. reflexivity.
Qed.

(** ** mult_mod *)
Lemma top_mult_mod_sound wit a b m s q r s' rho :
  let w := limb_width (bparams a) in
  let X := 2 ^ Z.of_nat w in
  run wit (mult_mod a b m) s = (Ok (q, r), s') -> sat rho s' ->
  bounded rho a -> bounded rho b -> bounded rho m ->
  Z.of_nat (length (limbs a) + length (limbs b)) <= modulus ->
  Z.of_nat (length (limbs q) + length (limbs m)) <= modulus ->
  group_no_wrap (Z.max (product_word (length (limbs a)) (max_word (bparams a)) (length (limbs b)) (max_word (bparams b)))
     (product_word (length (limbs q)) (X - 1) (length (limbs m)) (max_word (bparams m)) + (X - 1))) w ->
  int_of rho a * int_of rho b = int_of rho q * value_of X (wires rho (limbs m)) + int_of rho r /\
  Forall (fun v => 0 <= v < X) (wires rho (limbs q)) /\ Forall (fun v => 0 <= v < X) (wires rho (limbs r)) /\
  limb_width (bparams q) = w /\ limb_width (bparams r) = w /\ length (limbs r) = length (limbs m).
Proof.
  intros w X Hr Hs Ba Bb Bm L1 L2 Hn. pose proof W as [_ W2 _ _].
  pose proof (mult_mod_swp rho (proj1 Hs) Any a b m _ _ _ (ev_wires rho (limbs a)) (ev_wires rho (limbs b)) (ev_wires rho (limbs m))
    (proj1 (bounded_in_word _ _) Ba) (proj1 (bounded_in_word _ _) Bb) (proj1 (bounded_in_word _ _) Bm)) as H.
  cbv zeta in H. rewrite !wires_length in H.
  pose proof (swp_run_any _ _ _ _ _ _ _ Hr Hs (H ltac:(lia))) as K. cbv beta zeta iota in K.
  destruct (K ltac:(lia) Hn) as (K1 & K2 & K3 & K4 & K5 & K6 & K7).
  split; [|repeat split; auto]. etransitivity; [|exact K7]. unfold int_of. rewrite K1. reflexivity.
Qed.

Lemma rsum_nonneg A B : Forall (fun d => 0 <= d) A -> Forall (fun d => 0 <= d) B -> Forall (fun d => 0 <= d) (rsum A B).
Proof.
  intros HA HB. apply Forall_forall. intros x Hx. apply (In_nth _ _ 0) in Hx. destruct Hx as (i & _ & <-). rewrite rsum_nth.
  assert (K : forall l, Forall (fun d => 0 <= d) l -> 0 <= nth i l 0).
  { intros l Hl. destruct (nth_in_or_default i l 0) as [Hin| ->]; [|lia]. rewrite Forall_forall in Hl. auto. }
  pose proof (K A HA). pose proof (K B HB). lia.
Qed.

(** Every quotient and remainder in range satisfying the identity is accepted. *)
Lemma top_mult_mod_any wit a b m A B Mm Q R s q r s' rho0 :
  let w := limb_width (bparams a) in
  let X := 2 ^ Z.of_nat w in
  let M := Z.max (product_word (length A) (max_word (bparams a)) (length B) (max_word (bparams b)))
     (product_word (length Q) (X - 1) (length Mm) (max_word (bparams m)) + (X - 1)) in
  let g := group_size M w in
  good_for rho0 s -> bignat_for rho0 s a A -> bignat_for rho0 s b B -> bignat_for rho0 s m Mm ->
  run wit (mult_mod a b m) s = (Ok (q, r), s') -> A <> [] -> B <> [] -> Mm <> [] -> (1 <= w)%nat -> (w < NUM_BITS)%nat ->
  length Q = length (limbs q) -> length R = length Mm ->
  Forall (fun v => 0 <= v < X) Q -> Forall (fun v => 0 <= v < X) R ->
  value_of X A * value_of X B = value_of X Q * value_of X Mm + value_of X R ->
  group_room M w ->
  fits_groups w g (length A + length B - 1) (Nat.max (length Q + length Mm - 1) (length R)) (value_of X A * value_of X B) ->
  exists rho, same_on s rho rho0 /\ sat rho s' /\ wires rho (limbs q) = Q /\ wires rho (limbs r) = R.
Proof.
  intros w X M g G Ha Hb Hm Hr HA HB HM Hw HwN LQ LR RQ RR HV Hroom Hgr.
  pose proof (same_on_refl s rho0) as R0. pose proof W as [_ W2 _ _].
  pose proof (bignat_for_is _ _ _ _ _ wit G Ha R0 (proj1 (G _ R0))) as [(Ea0 & _ & NA & CA & _) _].
  pose proof (bignat_for_is _ _ _ _ _ wit G Hb R0 (proj1 (G _ R0))) as [(Eb0 & _ & NB & CB & _) _].
  pose proof (bignat_for_is _ _ _ _ _ wit G Hm R0 (proj1 (G _ R0))) as [(Em0 & _ & NM & CM & _) _].
  assert (HLA : (1 <= length A)%nat) by (destruct A; [congruence|cbn; lia]).
  assert (HLB : (1 <= length B)%nat) by (destruct B; [congruence|cbn; lia]).
  assert (HLM : (1 <= length Mm)%nat) by (destruct Mm; [congruence|cbn; lia]).
  assert (Hwd : limb_width (bparams b) = w).
  { destruct (Nat.eqb_spec (limb_width (bparams a)) (limb_width (bparams b))) as [|D]; auto.
    exfalso. apply Nat.eqb_neq in D. unfold mult_mod, width_agreement in Hr. rewrite D in Hr. discriminate. }
  assert (HLQ : length (limbs q) = q_limbs (n_bits_of a + n_bits_of b) (min_bits (bparams m)) w).
  { refine (rets_run wit _ _ (fun qr => length (limbs (fst qr)) = q_limbs (n_bits_of a + n_bits_of b) (min_bits (bparams m)) w) _ _ _ Hr).
    unfold mult_mod, width_agreement. rewrite Hwd. fold w. rewrite Nat.eqb_refl. cbn [lift bind].
    rewrite (n_bits_ok a), (n_bits_ok b) by lia. cbn [lift bind].
    unfold quotient_limbs. rewrite (proj2 (Nat.eqb_neq w 0)) by lia. cbn [lift bind].
    apply rets_bind, rets_ns. eapply rets_mono; [apply rets_alloc_nat|]. cbv beta. intros q0 [_ Hq0].
    do 5 (apply rets_skip; intros ?). cbv zeta. apply rets_skip; intros ?. exact Hq0. }
  assert (CQ : Forall canon Q) by now apply (range_canon w).
  assert (CR : Forall canon R) by now apply (range_canon w).
  destruct (awp_run wit (mult_mod a b m) s rho0 (range_aux w Q ++ range_aux w R ++ mod_aux w M (convs A B) (convs Q Mm) R)
    (fun rho qr => is_bn rho (md_of wit) (fst qr) Q /\ is_bn rho (md_of wit) (snd qr) R) (q, r) s' G) as (rho & H1 & H2 & H3); [|exact Hr|].
  { intros rho Hso one.
    destruct (bignat_for_is _ _ _ _ _ wit G Ha Hso one) as [Ia Wa].
    destruct (bignat_for_is _ _ _ _ _ wit G Hb Hso one) as [Ib Wb].
    destruct (bignat_for_is _ _ _ _ _ wit G Hm Hso one) as [Im Wm].
    pose proof (mult_mod_awp rho one (md_of wit) a b m A B Mm Q R) as H. cbv zeta in H. unfold mod_word in H.
    rewrite (ev_length _ _ _ Ea0), (ev_length _ _ _ Eb0), (ev_length _ _ _ Em0) in H. fold w in H. fold X in H. fold M in H.
    eapply awp_mono; [apply H; auto; clear H|].
    - apply md_of_not.
    - rewrite LQ; exact HLQ.
    - assert (1 <= length Q)%nat by (rewrite LQ, HLQ; unfold q_limbs; apply Nat.le_add_l).
      apply (sides_zero_fits _ _ _ _ (value_of X A * value_of X B)); [apply Hroom|rewrite convs_length; lia|rewrite rsum_length, convs_length; lia|..].
      + apply convs_nonneg; now apply canons_nonneg.
      + apply rsum_nonneg; [apply convs_nonneg|]; now apply canons_nonneg.
      + apply convs_value.
      + rewrite rsum_value, convs_value. symmetry. exact HV.
      + rewrite rsum_length, !convs_length. exact Hgr.
    - apply md_of_not.
    - cbv beta. tauto. }
  exists rho. split; auto. split; [apply H2, same_on_refl|].
  destruct (H3 rho (same_on_refl _ _)) as [(K1 & _) (K2 & _)]. cbn [fst snd] in *. split; apply ev_canon; auto.
Qed.

Lemma bignat_at_range s b vs w : bignat_at s b vs -> Forall (fun v => v < 2 ^ Z.of_nat w) vs ->
  Forall (fun v => 0 <= v < 2 ^ Z.of_nat w) vs.
Proof.
  intros Hb HR. pose proof (bignat_at_canon _ _ _ Hb) as HC. rewrite Forall_forall in *.
  intros v Hv. specialize (HC v Hv). specialize (HR v Hv). unfold canon in HC. lia.
Qed.
Lemma nonempty_length {A} (l : list A) : l <> [] -> (1 <= length l)%nat.
Proof. destruct l; [congruence|cbn; lia]. Qed.
Lemma bignat_at_nonneg s b vs B : bignat_at s b vs -> 0 <= B -> 0 <= value_of B vs.
Proof.
  intros Hb HB. apply value_of_nonneg; auto. pose proof (bignat_at_canon _ _ _ Hb) as HC.
  eapply Forall_impl; [|exact HC]. unfold canon; cbv beta; lia.
Qed.
Lemma digits_facts w n v : 0 <= v < 2 ^ Z.of_nat (w * n) ->
  let D := map (digit w v) (seq 0 n) in
  length D = n /\ Forall (fun v => 0 <= v < 2 ^ Z.of_nat w) D /\ value_of (2 ^ Z.of_nat w) D = v.
Proof.
  intros Hv D. split; [unfold D; now rewrite map_length, seq_length|]. split; [apply digits_range|].
  unfold D. rewrite digits_value. apply Z.mod_small. lia.
Qed.

(** The number of quotient limbs allotted by [mult_mod] and [red_mod]. *)
Lemma top_mult_mod_complete a b m A B Mm s :
  let w := limb_width (bparams a) in
  let X := 2 ^ Z.of_nat w in
  let ql := q_limbs (n_bits_of a + n_bits_of b) (min_bits (bparams m)) w in
  let M := Z.max (product_word (length A) (max_word (bparams a)) (length B) (max_word (bparams b)))
     (product_word ql (X - 1) (length Mm) (max_word (bparams m)) + (X - 1)) in
  let g := group_size M w in
  let P := value_of X A * value_of X B in
  good s -> bignat_at s a A -> bignat_at s b B -> bignat_at s m Mm ->
  limb_width (bparams b) = w -> limb_width (bparams m) = w \/ length Mm = 1%nat ->
  A <> [] -> B <> [] -> Mm <> [] -> (1 <= w)%nat -> (w < NUM_BITS)%nat ->
  0 < value_of X Mm <= 2 ^ Z.of_nat (w * length Mm) ->
  P / value_of X Mm < 2 ^ Z.of_nat (w * ql) ->
  group_room M w ->
  fits_groups w g (length A + length B - 1) (Nat.max (ql + length Mm - 1) (length Mm)) P ->
  exists q r s' Q R, run true (mult_mod a b m) s = (Ok (q, r), s') /\ good s' /\
    bignat_at s' q Q /\ bignat_at s' r R /\ length Q = ql /\ length R = length Mm /\
    value q = Some (P / value_of X Mm) /\ value r = Some (P mod value_of X Mm).
Proof.
  intros w X ql M g P G Ha Hb Hm Hwb Hwm HA HB HM Hw HwN [HM0 HM1] Hq Hroom Hgr.
  apply nonempty_length in HA, HB, HM. pose proof (pow2_pos w) as HX.
  assert (P0 : 0 <= P) by (apply Z.mul_nonneg_nonneg; eapply bignat_at_nonneg; eauto; unfold X; lia).
  pose proof (Z.mod_pos_bound P (value_of X Mm) HM0) as Hmod.
  pose proof (Z.div_pos P (value_of X Mm) P0 HM0) as Hdiv.
  destruct (digits_facts w ql (P / value_of X Mm) ltac:(lia)) as (LQ & RQ & VQ).
  destruct (digits_facts w (length Mm) (P mod value_of X Mm) ltac:(lia)) as (LR & RR & VR).
  set (Q := map (digit w (P / value_of X Mm)) (seq 0 ql)) in *.
  set (R := map (digit w (P mod value_of X Mm)) (seq 0 (length Mm))) in *.
  assert (HV : P = value_of X Q * value_of X Mm + value_of X R).
  { unfold X at 1 3. rewrite VQ, VR. pose proof (Z.div_mod P (value_of X Mm)). lia. }
  assert (HLQ : (1 <= length Q)%nat) by (rewrite LQ; unfold ql, q_limbs; apply Nat.le_add_l).
  destruct (honest_run (mult_mod a b m) s (range_aux w Q ++ range_aux w R ++ mod_aux w M (convs A B) (convs Q Mm) R)
    (fun rho qr => is_bn rho Honest (fst qr) Q /\ is_bn rho Honest (snd qr) R /\ in_word (fst qr) Q /\ in_word (snd qr) R /\
       bparams (fst qr) = params_new w ql /\ bparams (snd qr) = params_new w (length R)) G) as ([q r] & s' & Hr & Hg & _ & HQ).
  { intros rho Hag one. destruct (bignat_at_is _ _ _ _ Ha Hag one) as [Ia Wa].
    destruct (bignat_at_is _ _ _ _ Hb Hag one) as [Ib Wb]. destruct (bignat_at_is _ _ _ _ Hm Hag one) as [Im Wm].
    pose proof (mult_mod_awp rho one Honest a b m A B Mm Q R) as H. cbv zeta in H. unfold mod_word in H.
    rewrite (ev_length _ _ _ (proj1 Ia)), (ev_length _ _ _ (proj1 Ib)), (ev_length _ _ _ (proj1 Im)), LQ in H. fold w in H. fold X in H. fold M in H.
    apply H; auto; clear H.
    - apply (sides_zero_fits _ _ _ _ P); [apply Hroom|rewrite convs_length; lia|rewrite rsum_length, convs_length; lia|..].
      + apply convs_nonneg; eapply canons_nonneg, bignat_at_canon; eauto.
      + apply rsum_nonneg; [apply convs_nonneg|]; try (eapply ranges_nonneg; eassumption); eapply canons_nonneg, bignat_at_canon; eauto.
      + apply convs_value.
      + rewrite rsum_value, convs_value. symmetry. exact HV.
      + rewrite rsum_length, !convs_length, LQ, LR. exact Hgr.
    - intros _. unfold X at 1. rewrite VR. lia. }
  exists q, r, s', Q, R. destruct (HQ _ (agree_asg s')) as (Q1 & Q2 & Q3 & Q4 & Q5 & Q6). cbn [fst snd] in *.
  split; auto. split; auto.
  split; [apply is_bignat_at; [intros rho Hrho; apply (HQ _ Hrho)|auto]|].
  split; [apply is_bignat_at; [intros rho Hrho; apply (HQ _ Hrho)|auto]|].
  split; auto. split; auto.
  rewrite (is_bn_value _ _ _ _ Q1 eq_refl), (is_bn_value _ _ _ _ Q2 eq_refl), Q5, Q6. cbn [params_new limb_width].
  rewrite VQ, VR. auto.
Qed.

(** ** assert_product_mod *)
Lemma top_apm_sound wit a b m r s q s' rho :
  let w := limb_width (bparams a) in
  let X := 2 ^ Z.of_nat w in
  run wit (assert_product_mod a b m r) s = (Ok q, s') -> sat rho s' ->
  bounded rho a -> bounded rho b -> bounded rho m -> bounded rho r -> 0 <= max_word (bparams r) ->
  Z.of_nat (length (limbs a) + length (limbs b) + length (limbs m)) <= modulus ->
  group_no_wrap (Z.max (product_word (length (limbs a)) (max_word (bparams a)) (length (limbs b)) (max_word (bparams b)))
     (product_word (length (limbs a) + length (limbs b)) (X - 1) (length (limbs m)) (max_word (bparams m)) + max_word (bparams r))) w ->
  int_of rho a * int_of rho b = int_of rho q * int_of rho m + int_of rho r /\
  Forall (fun v => 0 <= v < X) (wires rho (limbs q)).
Proof.
  intros w X Hr Hs Ba Bb Bm Br H0 L1 Hn. pose proof W as [_ W2 _ _].
  pose proof (assert_product_mod_swp rho (proj1 Hs) Any a b m r _ _ _ _ (ev_wires rho (limbs a)) (ev_wires rho (limbs b)) (ev_wires rho (limbs m)) (ev_wires rho (limbs r))
    (proj1 (bounded_in_word _ _) Ba) (proj1 (bounded_in_word _ _) Bb) (proj1 (bounded_in_word _ _) Bm) (proj1 (bounded_in_word _ _) Br) H0) as H.
  cbv zeta in H. rewrite !wires_length in H.
  pose proof (swp_run_any _ _ _ _ _ _ _ Hr Hs (H ltac:(lia) Hn)) as K. cbv beta in K.
  destruct K as (K1 & K2 & K3 & K4 & K5 & K6 & K7). split; auto.
  etransitivity; [|etransitivity; [exact K7|]]; unfold int_of; rewrite ?K1, ?K2, ?K3; reflexivity.
Qed.

Lemma top_apm_complete a b m r A B Mm R s :
  let w := limb_width (bparams a) in
  let X := 2 ^ Z.of_nat w in
  let ql := (length A + length B)%nat in
  let M := Z.max (product_word (length A) (max_word (bparams a)) (length B) (max_word (bparams b)))
     (product_word ql (X - 1) (length Mm) (max_word (bparams m)) + max_word (bparams r)) in
  let g := group_size M w in
  let P := value_of X A * value_of X B in
  good s -> bignat_at s a A -> bignat_at s b B -> bignat_at s m Mm -> bignat_at s r R ->
  limb_width (bparams b) = w -> limb_width (bparams m) = w -> limb_width (bparams r) = w ->
  A <> [] -> B <> [] -> Mm <> [] -> R <> [] -> (1 <= w)%nat -> (w < NUM_BITS)%nat ->
  value_of X R = P mod value_of X Mm -> 0 < value_of X Mm ->
  P / value_of X Mm < 2 ^ Z.of_nat (w * ql) ->
  group_room M w ->
  fits_groups w g (length A + length B - 1) (Nat.max (ql + length Mm - 1) (length R)) P ->
  exists q s' Q, run true (assert_product_mod a b m r) s = (Ok q, s') /\ good s' /\
    bignat_at s' q Q /\ length Q = ql /\ value q = Some (P / value_of X Mm).
Proof.
  intros w X ql M g P G Ha Hb Hm Hrr Hwb Hwm Hwr HA HB HM HR Hw HwN HVR HM0 Hq Hroom Hgr.
  apply nonempty_length in HA, HB, HM, HR. pose proof (pow2_pos w) as HX.
  assert (P0 : 0 <= P) by (apply Z.mul_nonneg_nonneg; eapply bignat_at_nonneg; eauto; unfold X; lia).
  pose proof (Z.mod_pos_bound P (value_of X Mm) HM0) as Hmod.
  pose proof (Z.div_pos P (value_of X Mm) P0 HM0) as Hdiv.
  destruct (digits_facts w ql (P / value_of X Mm) ltac:(lia)) as (LQ & RQ & VQ).
  set (Q := map (digit w (P / value_of X Mm)) (seq 0 ql)) in *.
  assert (HV : P = value_of X Q * value_of X Mm + value_of X R).
  { unfold X at 1. rewrite VQ, HVR. pose proof (Z.div_mod P (value_of X Mm)). lia. }
  destruct (honest_run (assert_product_mod a b m r) s (range_aux w Q ++ mod_aux w M (convs A B) (convs Q Mm) R)
    (fun rho q => is_bn rho Honest q Q /\ in_word q Q /\ bparams q = params_new w ql) G) as (q & s' & Hr & Hg & _ & HQ).
  { intros rho Hag one. destruct (bignat_at_is _ _ _ _ Ha Hag one) as [Ia Wa].
    destruct (bignat_at_is _ _ _ _ Hb Hag one) as [Ib Wb]. destruct (bignat_at_is _ _ _ _ Hm Hag one) as [Im Wm].
    destruct (bignat_at_is _ _ _ _ Hrr Hag one) as [Ir Wr].
    pose proof (assert_product_mod_awp rho one Honest a b m r A B Mm Q R) as H. cbv zeta in H. unfold mod_word in H.
    rewrite (ev_length _ _ _ (proj1 Ia)), (ev_length _ _ _ (proj1 Ib)), (ev_length _ _ _ (proj1 Im)), LQ in H. fold w in H. fold X in H. fold M in H.
    apply H; auto; clear H.
    - eapply in_word_max; eauto.
    - apply (sides_zero_fits _ _ _ _ P); [apply Hroom|rewrite convs_length; lia|rewrite rsum_length, convs_length; lia|..].
      + apply convs_nonneg; eapply canons_nonneg, bignat_at_canon; eauto.
      + apply rsum_nonneg; [apply convs_nonneg|]; try (eapply ranges_nonneg; eassumption); eapply canons_nonneg, bignat_at_canon; eauto.
      + apply convs_value.
      + rewrite rsum_value, convs_value. symmetry. exact HV.
      + rewrite rsum_length, !convs_length, LQ. exact Hgr.
    - intros _. rewrite HVR. lia. }
  exists q, s', Q. destruct (HQ _ (agree_asg s')) as (Q1 & Q2 & Q3).
  split; auto. split; auto.
  split; [apply is_bignat_at; [intros rho Hrho; apply (HQ _ Hrho)|auto]|]. split; auto.
  rewrite (is_bn_value _ _ _ _ Q1 eq_refl), Q3. cbn [params_new limb_width]. rewrite VQ. auto.
Qed.

(** ** red_mod *)
Lemma top_red_mod_sound wit a m s r s' rho :
  let w := limb_width (bparams a) in
  let X := 2 ^ Z.of_nat w in
  let ql := q_limbs (n_bits_of a) (min_bits (bparams m)) w in
  run wit (red_mod a m) s = (Ok r, s') -> sat rho s' -> bounded rho a -> bounded rho m ->
  Z.of_nat (ql + length (limbs m)) <= modulus ->
  group_no_wrap (Z.max (max_word (bparams a)) (product_word ql (X - 1) (length (limbs m)) (max_word (bparams m)) + (X - 1))) w ->
  (exists q, 0 <= q /\ int_of rho a = q * int_of rho m + int_of rho r) /\
  Forall (fun v => 0 <= v < X) (wires rho (limbs r)) /\ limb_width (bparams r) = w /\ length (limbs r) = length (limbs m).
Proof.
  intros w X ql Hr Hs Ba Bm L1 Hn. pose proof W as [_ W2 _ _].
  pose proof (red_mod_swp rho (proj1 Hs) Any a m _ _ (ev_wires rho (limbs a)) (ev_wires rho (limbs m))
    (proj1 (bounded_in_word _ _) Ba) (proj1 (bounded_in_word _ _) Bm)) as H.
  cbv zeta in H. rewrite !wires_length in H. fold w in H. fold X in H. fold (n_bits_of a) in H.
  assert (HK : forall ql', quotient_limbs (n_bits_of a) (min_bits (bparams m)) w = Ok ql' -> ql' = ql).
  { intros ql' Hq. unfold quotient_limbs in Hq. destruct (Nat.eqb_spec w 0); [discriminate|]. injection Hq as <-. reflexivity. }
  assert (H' : swp Any rho (red_mod a m) (fun r => limb_width (bparams m) = w /\ limb_width (bparams r) = w /\
    length (limbs r) = length (limbs m) /\ range_wires rho w r /\
    exists q, 0 <= q /\ value_of X (wires rho (limbs a)) = q * value_of X (wires rho (limbs m)) + int_of rho r)).
  { apply H. intros ql' Hq. rewrite (HK _ Hq). split; [lia|exact Hn]. }
  pose proof (swp_run_any _ _ _ _ _ _ _ Hr Hs H') as K. cbv beta in K.
  destruct K as (K1 & K2 & K3 & K4 & q & K5 & K6). split; [|auto]. exists q. split; auto.
  etransitivity; [|etransitivity; [exact K6|]]; unfold int_of; rewrite ?K1; reflexivity.
Qed.

Lemma top_red_mod_any wit a m A Mm Q R s r s' rho0 :
  let w := limb_width (bparams a) in
  let X := 2 ^ Z.of_nat w in
  let ql := q_limbs (n_bits_of a) (min_bits (bparams m)) w in
  let M := Z.max (max_word (bparams a)) (product_word ql (X - 1) (length Mm) (max_word (bparams m)) + (X - 1)) in
  let g := group_size M w in
  good_for rho0 s -> bignat_for rho0 s a A -> bignat_for rho0 s m Mm ->
  run wit (red_mod a m) s = (Ok r, s') -> A <> [] -> Mm <> [] -> (1 <= w)%nat -> (w < NUM_BITS)%nat ->
  length Q = ql -> length R = length Mm ->
  Forall (fun v => 0 <= v < X) Q -> Forall (fun v => 0 <= v < X) R ->
  value_of X A = value_of X Q * value_of X Mm + value_of X R ->
  group_room M w ->
  fits_groups w g (length A) (Nat.max (length Q + length Mm - 1) (length R)) (value_of X A) ->
  exists rho, same_on s rho rho0 /\ sat rho s' /\ wires rho (limbs r) = R.
Proof.
  intros w X ql M g G Ha Hm Hr HA HM Hw HwN LQ LR RQ RR HV Hroom Hgr.
  apply nonempty_length in HA, HM.
  assert (Hwd : limb_width (bparams m) = w).
  { destruct (Nat.eqb_spec (limb_width (bparams a)) (limb_width (bparams m))) as [|D]; auto.
    exfalso. apply Nat.eqb_neq in D. unfold red_mod, width_agreement in Hr. rewrite D in Hr. discriminate. }
  destruct (awp_run wit (red_mod a m) s rho0 (range_aux w Q ++ range_aux w R ++ convs Q Mm ++ regroup_aux M w A (rsum (convs Q Mm) R))
    (fun rho r => is_bn rho (md_of wit) r R) r s' G) as (rho & H1 & H2 & H3); [|exact Hr|].
  { intros rho Hso one.
    destruct (bignat_for_is _ _ _ _ _ wit G Ha Hso one) as [Ia Wa].
    destruct (bignat_for_is _ _ _ _ _ wit G Hm Hso one) as [Im Wm].
    pose proof (red_mod_awp rho one (md_of wit) a m A Mm Q R) as H. cbv zeta in H. rewrite LQ in H. fold w in H. fold X in H. fold M in H.
    eapply awp_mono; [apply H; auto; clear H|].
    - assert (1 <= length Q)%nat by (rewrite LQ; unfold ql, q_limbs; apply Nat.le_add_l).
      apply (sides_zero_fits _ _ _ _ (value_of X A)); [apply Hroom|lia|rewrite rsum_length, convs_length; lia|..]; auto.
      + apply canons_nonneg, Ia.
      + apply rsum_nonneg; [apply convs_nonneg|]; try (eapply ranges_nonneg; eassumption); apply canons_nonneg, Im.
      + rewrite rsum_value, convs_value. symmetry. exact HV.
      + rewrite rsum_length, !convs_length. exact Hgr.
    - apply md_of_not.
    - cbv beta. tauto. }
  exists rho. split; auto. split; [apply H2, same_on_refl|].
  destruct (H3 rho (same_on_refl _ _)) as (K1 & _). apply ev_canon; auto. now apply (range_canon w).
Qed.

Lemma top_red_mod_complete a m A Mm s :
  let w := limb_width (bparams a) in
  let X := 2 ^ Z.of_nat w in
  let ql := q_limbs (n_bits_of a) (min_bits (bparams m)) w in
  let M := Z.max (max_word (bparams a)) (product_word ql (X - 1) (length Mm) (max_word (bparams m)) + (X - 1)) in
  let g := group_size M w in
  good s -> bignat_at s a A -> bignat_at s m Mm -> limb_width (bparams m) = w ->
  A <> [] -> Mm <> [] -> (1 <= w)%nat -> (w < NUM_BITS)%nat ->
  0 < value_of X Mm <= 2 ^ Z.of_nat (w * length Mm) ->
  value_of X A / value_of X Mm < 2 ^ Z.of_nat (w * ql) ->
  group_room M w ->
  fits_groups w g (length A) (Nat.max (ql + length Mm - 1) (length Mm)) (value_of X A) ->
  exists r s' R, run true (red_mod a m) s = (Ok r, s') /\ good s' /\
    bignat_at s' r R /\ length R = length Mm /\ value r = Some (value_of X A mod value_of X Mm).
Proof.
  intros w X ql M g G Ha Hm Hwm HA HM Hw HwN [HM0 HM1] Hq Hroom Hgr. set (P := value_of X A) in *.
  apply nonempty_length in HA, HM. pose proof (pow2_pos w) as HX.
  assert (P0 : 0 <= P) by (eapply bignat_at_nonneg; eauto; unfold X; lia).
  pose proof (Z.mod_pos_bound P (value_of X Mm) HM0) as Hmod.
  pose proof (Z.div_pos P (value_of X Mm) P0 HM0) as Hdiv.
  destruct (digits_facts w ql (P / value_of X Mm) ltac:(lia)) as (LQ & RQ & VQ).
  destruct (digits_facts w (length Mm) (P mod value_of X Mm) ltac:(lia)) as (LR & RR & VR).
  set (Q := map (digit w (P / value_of X Mm)) (seq 0 ql)) in *.
  set (R := map (digit w (P mod value_of X Mm)) (seq 0 (length Mm))) in *.
  assert (HV : P = value_of X Q * value_of X Mm + value_of X R).
  { unfold X at 1 3. rewrite VQ, VR. pose proof (Z.div_mod P (value_of X Mm)). lia. }
  assert (HLQ : (1 <= length Q)%nat) by (rewrite LQ; unfold ql, q_limbs; apply Nat.le_add_l).
  destruct (honest_run (red_mod a m) s (range_aux w Q ++ range_aux w R ++ convs Q Mm ++ regroup_aux M w A (rsum (convs Q Mm) R))
    (fun rho r => is_bn rho Honest r R /\ in_word r R /\ bparams r = params_new w (length R)) G) as (r & s' & Hr & Hg & _ & HQ).
  { intros rho Hag one. destruct (bignat_at_is _ _ _ _ Ha Hag one) as [Ia Wa].
    destruct (bignat_at_is _ _ _ _ Hm Hag one) as [Im Wm].
    pose proof (red_mod_awp rho one Honest a m A Mm Q R) as H. cbv zeta in H. rewrite LQ in H. fold w in H. fold X in H. fold M in H.
    apply H; auto; clear H.
    - apply (sides_zero_fits _ _ _ _ P); [apply Hroom|lia|rewrite rsum_length, convs_length; lia|..]; auto.
      + eapply canons_nonneg, bignat_at_canon; eauto.
      + apply rsum_nonneg; [apply convs_nonneg|]; try (eapply ranges_nonneg; eassumption); eapply canons_nonneg, bignat_at_canon; eauto.
      + rewrite rsum_value, convs_value. symmetry. exact HV.
      + rewrite rsum_length, !convs_length, LQ, LR. exact Hgr.
    - intros _. unfold X at 1. rewrite VR. lia. }
  exists r, s', R. destruct (HQ _ (agree_asg s')) as (Q1 & Q2 & Q3).
  split; auto. split; auto.
  split; [apply is_bignat_at; [intros rho Hrho; apply (HQ _ Hrho)|auto]|]. split; auto.
  rewrite (is_bn_value _ _ _ _ Q1 eq_refl), Q3. cbn [params_new limb_width]. rewrite VR. auto.
Qed.

(** ** divides *)
Lemma top_divides_sound wit a b s u s' rho :
  let w := limb_width (bparams a) in
  let M := Z.max (product_word (length (limbs a)) (max_word (bparams a)) (length (limbs b)) (2 ^ Z.of_nat w - 1)) (max_word (bparams b)) in
  run wit (divides a b) s = (Ok u, s') -> sat rho s' ->
  well_shaped a -> well_shaped b -> bounded rho a -> bounded rho b ->
  Z.of_nat (length (limbs a) + length (limbs b)) <= modulus -> group_no_wrap M w ->
  (int_of rho a | int_of rho b).
Proof.
  intros w M Hr Hs Sa Sb Ba Bb HL Hn. pose proof W as [_ W2 _ _].
  pose proof (divides_swp rho (proj1 Hs) Any a b _ _ (ev_wires rho (limbs a)) (ev_wires rho (limbs b))
    (proj1 (bounded_in_word _ _) Ba) (proj1 (bounded_in_word _ _) Bb) (shaped_n rho a Sa) (shaped_n rho b Sb)) as H.
  cbv zeta in H. rewrite !wires_length in H.
  pose proof (swp_run_any _ _ _ _ _ _ _ Hr Hs (H ltac:(lia) Hn)) as K. cbv beta in K.
  destruct K as (K1 & K2). unfold int_of. rewrite K1. exact K2.
Qed.

Lemma top_divides_complete a b A B s :
  let w := limb_width (bparams a) in
  let X := 2 ^ Z.of_nat w in
  let M := Z.max (product_word (length A) (max_word (bparams a)) (length B) (X - 1)) (max_word (bparams b)) in
  let g := group_size M w in
  good s -> bignat_at s a A -> bignat_at s b B -> limb_width (bparams b) = w ->
  A <> [] -> B <> [] -> (1 <= w)%nat -> (w < NUM_BITS)%nat -> Forall (fun v => v < X) B ->
  0 < value_of X A -> (value_of X A | value_of X B) -> group_room M w ->
  fits_groups w g (length A + length B - 1) (length B) (value_of X B) ->
  exists s', run true (divides a b) s = (Ok tt, s') /\ good s'.
Proof.
  intros w X M g G Ha Hb Hwb HA HB Hw HwN RB HA0 [k Hk] Hroom Hgr.
  apply nonempty_length in HA, HB. pose proof (pow2_pos w) as HX.
  pose proof (bignat_at_range _ _ _ _ Hb RB) as RB'. pose proof (range_value _ _ RB') as VB. fold X in VB.
  assert (Hk0 : 0 <= k < 2 ^ Z.of_nat (w * length B)) by nia.
  destruct (digits_facts w (length B) k Hk0) as (LQ & RQ & VQ).
  set (Q := map (digit w k) (seq 0 (length B))) in *.
  destruct (honest_run (divides a b) s (range_aux w Q ++ convs A Q ++ regroup_aux M w (convs A Q) B) (fun _ _ => True) G) as ([] & s' & Hr & Hg & _).
  { intros rho Hag one. destruct (bignat_at_is _ _ _ _ Ha Hag one) as [Ia Wa].
    destruct (bignat_at_is _ _ _ _ Hb Hag one) as [Ib Wb].
    pose proof (divides_awp rho one Honest a b A B Q) as H. cbv zeta in H. fold w in H. fold X in H. fold M in H.
    apply H; auto; clear H.
    - fold X in VQ. rewrite VQ. lia.
    - apply (sides_zero_fits _ _ _ _ (value_of X B)); [apply Hroom|rewrite convs_length; lia|lia|..]; auto.
      + apply convs_nonneg; [eapply canons_nonneg, bignat_at_canon; eauto|eapply ranges_nonneg; eassumption].
      + eapply canons_nonneg, bignat_at_canon; eauto.
      + rewrite convs_value. fold X in VQ. fold X. rewrite VQ. lia.
      + rewrite convs_length, LQ. exact Hgr. }
  eauto.
Qed.

Lemma top_divides_error a b A B s :
  good s -> bignat_at s a A -> bignat_at s b B -> B <> [] -> limb_width (bparams b) = limb_width (bparams a) ->
  ~ (value_of (2 ^ Z.of_nat (limb_width (bparams a))) A | value_of (2 ^ Z.of_nat (limb_width (bparams b))) B) ->
  fst (run true (divides a b) s) = Err IoError.
Proof.
  intros G Ha Hb HB HW Hnd. destruct Ha as (_ & _ & Va & _). destruct Hb as (_ & _ & Vb & Nb & _).
  apply nonempty_length in HB. unfold divides, width_agreement. rewrite HW, Nat.eqb_refl, Va, Vb, Nb.
  assert (HI : is_multiple_of (value_of (2 ^ Z.of_nat (limb_width (bparams b))) B) (value_of (2 ^ Z.of_nat (limb_width (bparams a))) A) = false).
  { unfold is_multiple_of. destruct (Z.eqb_spec (value_of (2 ^ Z.of_nat (limb_width (bparams a))) A) 0) as [H0|H0].
    - apply Z.eqb_neq. intros H. apply Hnd. rewrite H. apply Z.divide_0_r.
    - apply Z.eqb_neq. intros H. apply Hnd. now apply Z.rem_divide. }
  cbn [grab rbind]. rewrite HI. unfold alloc_from_nat. destruct (length B); [lia|]. reflexivity.
Qed.

(** ** sub *)
Lemma top_sub_sound wit a b s d s' rho :
  let w := limb_width (bparams a) in
  run wit (sub a b) s = (Ok d, s') -> sat rho s' ->
  well_shaped a -> well_shaped b -> bounded rho a -> bounded rho b -> 0 <= max_word (bparams b) ->
  group_no_wrap (Z.max (max_word (bparams a)) (max_word (bparams b) + (2 ^ Z.of_nat w - 1))) w ->
  bounded rho d -> int_of rho a = int_of rho b + int_of rho d.
Proof.
  intros w Hr Hs Sa Sb Ba Bb H0 Hn Bd.
  pose proof (sub_swp rho (proj1 Hs) Any a b _ _ (ev_wires rho (limbs a)) (ev_wires rho (limbs b))
    (proj1 (bounded_in_word _ _) Ba) (proj1 (bounded_in_word _ _) Bb) (shaped_n rho a Sa) (shaped_n rho b Sb) H0 Hn) as H.
  cbv zeta in H.
  pose proof (swp_run_any _ _ _ _ _ _ _ Hr Hs H) as K. cbv beta in K.
  destruct K as (K1 & K2 & K3 & K4). unfold int_of at 1 2. rewrite K1. apply K4.
  unfold bounded in Bd. rewrite K2, params_word in Bd. unfold range_wires.
  pose proof (wires_nonneg rho (limbs d)) as HN. rewrite Forall_forall in *. intros v Hv. specialize (Bd v Hv). specialize (HN v Hv). cbv beta in Bd, HN. clear -Bd HN. lia.
Qed.

Lemma top_sub_complete a b A B s :
  let w := limb_width (bparams a) in
  let X := 2 ^ Z.of_nat w in
  good s -> bignat_at s a A -> bignat_at s b B -> limb_width (bparams b) = w ->
  (1 <= w)%nat -> (w < NUM_BITS)%nat -> (1 <= length B <= length A)%nat ->
  0 <= value_of X A - value_of X B < 2 ^ Z.of_nat (w * length A) ->
  group_room (Z.max (max_word (bparams a)) (max_word (bparams b) + (X - 1))) w ->
  exists d s' D, run true (sub a b) s = (Ok d, s') /\ good s' /\ bignat_at s' d D /\ length D = length A /\
    value d = Some (value_of X A - value_of X B).
Proof.
  intros w X G Ha Hb Hwb Hw HwN HL HD Hroom.
  destruct (digits_facts w (length A) _ HD) as (LD & RD & VD).
  set (D := map (digit w (value_of X A - value_of X B)) (seq 0 (length A))) in *.
  destruct (honest_run (sub a b) s (D ++ regroup_aux (sub_word a b) w A (rsum B D))
    (fun rho d => is_bn rho Honest d D /\ bparams d = params_new w (length A)) G) as (d & s' & Hr & Hg & _ & HQ).
  { intros rho Hag one. destruct (bignat_at_is _ _ _ _ Ha Hag one) as [Ia Wa].
    destruct (bignat_at_is _ _ _ _ Hb Hag one) as [Ib Wb].
    apply (sub_awp rho one Honest a b A B D); auto; try lia.
    - eapply in_word_max; eauto; lia.
    - fold w. rewrite VD. fold X. lia.
    - apply sides_zero_same; [apply Hroom|lia|rewrite rsum_length; lia|]. rewrite rsum_length. f_equal. lia. }
  exists d, s', D. destruct (HQ _ (agree_asg s')) as (Q1 & Q2). split; auto. split; auto.
  split; [apply is_bignat_at; [intros rho Hrho; apply (HQ _ Hrho)|eapply range_in_word; eauto]|]. split; auto.
  rewrite (is_bn_value _ _ _ _ Q1 eq_refl), Q2. cbn [params_new limb_width]. rewrite VD. auto.
Qed.

(** ** min *)
Lemma top_min_complete a b A B s :
  let w := limb_width (bparams a) in
  let X := 2 ^ Z.of_nat w in
  good s -> bignat_at s a A -> bignat_at s b B -> limb_width (bparams b) = w ->
  (1 <= w)%nat -> (w < NUM_BITS)%nat -> B <> [] ->
  Forall (fun v => v < X) A -> Forall (fun v => v < X) B ->
  group_room (max_word (bparams b) + (X - 1)) w ->
  exists r s' R, run true (bn_min a b) s = (Ok r, s') /\ good s' /\ bignat_at s' r R /\
    value r = Some (Z.min (value_of X A) (value_of X B)).
Proof.
  intros w X G Ha Hb Hwb Hw HwN HB RA RB Hroom. apply nonempty_length in HB.
  set (x := value_of X B <? value_of X A). set (n := Nat.max (length A) (length B)).
  destruct (honest_run (bn_min a b) s (min_aux x w (min_word b) A B)
    (fun rho r => is_bn rho Honest r (padded n (wsel x A B)) /\ bparams r = params_new w n) G) as (r & s' & Hr & Hg & _ & HQ).
  { intros rho Hag one. destruct (bignat_at_is _ _ _ _ Ha Hag one) as [Ia Wa].
    destruct (bignat_at_is _ _ _ _ Hb Hag one) as [Ib Wb].
    apply (min_awp rho one Honest a b A B x); auto.
    - eapply in_word_max; eauto; lia.
    - apply (bignat_at_range _ _ _ _ Ha RA).
    - apply (bignat_at_range _ _ _ _ Hb RB).
    - lia.
    - intros Hx. unfold x in Hx. apply Z.ltb_lt in Hx. fold w X. lia.
    - unfold min_word. rewrite Hwb. exact Hroom. }
  exists r, s', (padded n (wsel x A B)). destruct (HQ _ (agree_asg s')) as (Q1 & Q2). split; auto. split; auto.
  assert (Forall (fun v => 0 <= v < X) (padded n (wsel x A B))).
  { apply padded_Forall; [pose proof (pow2_pos w); unfold X; lia|]. destruct x; cbn [wsel]; [apply (bignat_at_range _ _ _ _ Hb RB)|apply (bignat_at_range _ _ _ _ Ha RA)]. }
  split; [apply is_bignat_at; [intros rho Hrho; apply (HQ _ Hrho)|eapply range_in_word; eauto]|].
  rewrite (is_bn_value _ _ _ _ Q1 eq_refl), Q2. cbn [params_new limb_width]. fold X. rewrite padded_value.
  unfold x. destruct (Z.ltb_spec (value_of X B) (value_of X A)); cbn [wsel]; f_equal; lia.
Qed.

(** The first operand can always be returned, even when it is the larger one. *)
Lemma top_min_any wit a b A B s r s' rho0 :
  let w := limb_width (bparams a) in
  let X := 2 ^ Z.of_nat w in
  good_for rho0 s -> bignat_for rho0 s a A -> bignat_for rho0 s b B -> limb_width (bparams b) = w ->
  run wit (bn_min a b) s = (Ok r, s') -> (1 <= w)%nat -> (w < NUM_BITS)%nat -> B <> [] ->
  Forall (fun v => v < X) A -> Forall (fun v => v < X) B ->
  group_room (max_word (bparams b) + (X - 1)) w ->
  exists rho, same_on s rho rho0 /\ sat rho s' /\ int_of rho r = value_of X A.
Proof.
  intros w X G Ha Hb Hwb Hr Hw HwN HB RA RB Hroom. apply nonempty_length in HB.
  set (n := Nat.max (length A) (length B)).
  pose proof (bignat_for_canon _ _ _ _ G Ha) as CA. pose proof (bignat_for_canon _ _ _ _ G Hb) as CB.
  assert (RA' : Forall (fun v => 0 <= v < X) A).
  { rewrite Forall_forall in *. intros v Hv. specialize (CA v Hv). specialize (RA v Hv). unfold canon in CA. lia. }
  assert (RB' : Forall (fun v => 0 <= v < X) B).
  { rewrite Forall_forall in *. intros v Hv. specialize (CB v Hv). specialize (RB v Hv). unfold canon in CB. lia. }
  destruct (awp_run wit (bn_min a b) s rho0 (min_aux false w (min_word b) A B)
    (fun rho r => is_bn rho (md_of wit) r (padded n A) /\ bparams r = params_new w n) r s' G) as (rho & H1 & H2 & H3); [|exact Hr|].
  { intros rho Hso one. destruct (bignat_for_is _ _ _ _ _ wit G Ha Hso one) as [Ia Wa].
    destruct (bignat_for_is _ _ _ _ _ wit G Hb Hso one) as [Ib Wb].
    apply (min_awp rho one (md_of wit) a b A B false); auto.
    - eapply in_word_max; eauto; lia.
    - lia.
    - discriminate.
    - apply md_of_not.
    - unfold min_word. rewrite Hwb. exact Hroom. }
  exists rho. split; auto. split; [apply H2, same_on_refl|].
  destruct (H3 rho (same_on_refl _ _)) as [(K1 & _) K2]. unfold int_of.
  rewrite (ev_canon _ _ _ K1) by (apply padded_Forall; [apply canon_0|auto]). rewrite K2. cbn [params_new limb_width]. apply padded_value.
Qed.

End Top.
