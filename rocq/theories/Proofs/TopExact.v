(** Final forms of the exact conditions for products and divisions (C85). *)
From Coq Require Import ZArith Bool List Lia ZifyBool ZifyNat.
From Verif.Model Require Import Base CS Bellpepper Util Poly Bignat.
From Verif.Spec Require Import Spec SpecExact.
From Verif.Proofs Require Import Field Arith Convert Limbs Wp Lc BitNum PolyP BoolP BignatEq BignatAlloc Group Carry Regroup Mult MultC PureOps MinBits Owp TopBits TopBignat1 TopBignat2 TopBignat3 Total TopTotal DecP ExactP.
Import ListNotations.
Local Open Scope Z_scope.

Section TopExact.
Context {E : Env} {W : Wf E}.

(** ** The prover may choose *)
Section Rho.
Context (rho : assignment) (one : rho ONE = 1).

Lemma two_sides_zero_swp md lhs rhs w a q m r L Q Mm R :
  ev rho (p_coeffs lhs) L -> Forall (fun d => 0 <= d <= a) L ->
  ev rho (p_coeffs rhs) (convs Q Mm) -> ev rho (limbs r) R ->
  ev rho (limbs q) Q -> ev rho (limbs m) Mm ->
  in_word q Q -> in_word m Mm -> in_word r R -> 0 <= max_word (bparams r) ->
  group_no_wrap (Z.max a (right_max_word q m r)) w ->
  swp md rho (equal_when_carried_regroup (from_poly lhs w a)
     (from_poly (poly_sum rhs (to_poly r)) w (right_max_word q m r))) (fun _ =>
    sides_zero (Z.max a (right_max_word q m r)) w L (rsum (convs Q Mm) R)).
Proof.
  intros HL BL HP HR HQ HM WQ WM WR R0 HN.
  assert (B1 : Forall (fun d => 0 <= d <= Z.of_nat (Nat.min (length Q) (length Mm)) * max_word (bparams q) * max_word (bparams m))
     (convs Q Mm)) by (apply conv_list_bound; auto).
  assert (C0 : 0 <= Z.of_nat (Nat.min (length Q) (length Mm)) * max_word (bparams q) * max_word (bparams m)).
  { pose proof (conv_bound Q Mm 0 _ _ WQ WM). lia. }
  eapply swp_mono; [eapply (regroup_swp rho one md (from_poly lhs w a)
     (from_poly (poly_sum rhs (to_poly r)) w (right_max_word q m r)) L (rsum (convs Q Mm) R))|];
    rewrite ?from_poly_bparams; cbn [limbs max_word limb_width from_poly]; auto.
  - apply (poly_sum_ev rho rhs (to_poly r)); auto.
  - unfold right_max_word. rewrite (ev_length _ _ _ HQ), (ev_length _ _ _ HM). apply rsum_bound; auto.
  - cbv beta. unfold sides_zero. tauto.
Qed.

Lemma assert_product_mod_zero_swp md a b m r A B Mm R :
  let w := limb_width (bparams a) in
  let B' := 2 ^ Z.of_nat w in
  ev rho (limbs a) A -> ev rho (limbs b) B -> ev rho (limbs m) Mm -> ev rho (limbs r) R ->
  in_word a A -> in_word b B -> in_word m Mm -> in_word r R -> 0 <= max_word (bparams r) ->
  Z.of_nat (length A + length B + length Mm - 1) < modulus ->
  group_no_wrap (mod_word a b m (length A + length B) (max_word (bparams r)) w) w ->
  swp md rho (assert_product_mod a b m r) (fun q =>
    sides_zero (mod_word a b m (length A + length B) (max_word (bparams r)) w) w (convs A B) (rsum (convs (wires rho (limbs q)) Mm) R)).
Proof.
  intros w B' Ha Hb Hm Hr WA WB WM WR R0 Hn HN. unfold assert_product_mod.
  do 2 sstep. intros w1 Hw1. unfold width_agreement in Hw1.
  destruct (Nat.eqb_spec (limb_width (bparams a)) (limb_width (bparams b))) as [W1|]; [|discriminate].
  do 2 sstep. intros w2 Hw2. unfold width_agreement in Hw2.
  destruct (Nat.eqb_spec (limb_width (bparams a)) (limb_width (bparams m))) as [W2|]; [|discriminate].
  do 2 sstep. intros w3 Hw3. unfold width_agreement in Hw3.
  destruct (Nat.eqb_spec (limb_width (bparams a)) (limb_width (bparams r))) as [W3|]; [|discriminate].
  clear w1 Hw1 w2 Hw2 w3 Hw3. fold w. do 2 sstep. apply alloc_from_nat_swp. intros q Hp Lp.
  rewrite (ev_length _ _ _ Ha), (ev_length _ _ _ Hb) in *.
  assert (Pw : limb_width (bparams q) = w /\ max_word (bparams q) = 2 ^ Z.of_nat w - 1).
  { rewrite Hp. split; auto. change (max_word (params_new w (length A + length B))) with (int_with_n_ones w). apply int_with_n_ones_spec. }
  destruct Pw as [Pw Pm].
  do 2 sstep. eapply (wf_range rho); auto. intros HR. rewrite Pw in HR.
  set (Q := wires rho (limbs q)) in *.
  assert (HQ : ev rho (limbs q) Q) by apply ev_wires.
  assert (LQ : length Q = (length A + length B)%nat) by (unfold Q, wires; now rewrite map_length).
  do 2 sstep. eapply swp_mono; [apply (alloc_product_swp rho md (to_poly a) (to_poly b) A B); auto; lia|].
  intros lhs Hlhs. cbv beta in Hlhs. fold (convs A B) in Hlhs.
  do 2 sstep. eapply swp_mono; [apply (alloc_product_swp rho md (to_poly q) (to_poly m) Q Mm); auto; lia|].
  intros rp Hrp. cbv beta in Hrp. fold (convs Q Mm) in Hrp. do 2 sstep.
  destruct (Nat.eq_dec w 0) as [W0|W0]; [apply regroup_w0; exact W0|].
  rewrite width1_pos in HR by lia.
  eapply swp_mono; [eapply (two_sides_zero_swp md lhs rp w (left_max_word a b) q m r (convs A B) Q Mm R); auto|].
  - unfold left_max_word. rewrite (ev_length _ _ _ Ha), (ev_length _ _ _ Hb). apply conv_list_bound; auto.
  - unfold in_word. rewrite Pm. eapply Forall_impl; [|exact HR]. cbv beta. lia.
  - unfold mod_word, product_word in HN. unfold left_max_word, right_max_word.
    rewrite Pm, (ev_length _ _ _ HQ), LQ. exact HN.
  - cbv beta. intros _ HV. sstep. unfold mod_word, product_word. unfold left_max_word, right_max_word in HV.
    rewrite Pm, (ev_length _ _ _ HQ), LQ in HV. exact HV.
Qed.

Lemma mult_mod_zero_swp md a b m A B Mm :
  let w := limb_width (bparams a) in
  let B' := 2 ^ Z.of_nat w in
  ev rho (limbs a) A -> ev rho (limbs b) B -> ev rho (limbs m) Mm ->
  in_word a A -> in_word b B -> in_word m Mm ->
  Z.of_nat (length A + length B - 1) < modulus ->
  swp md rho (mult_mod a b m) (fun qr => let '(q, r) := qr in
    Z.of_nat (length (limbs q) + length Mm - 1) < modulus ->
    group_no_wrap (mod_word a b m (length (limbs q)) (2 ^ Z.of_nat w - 1) w) w ->
    sides_zero (mod_word a b m (length (limbs q)) (2 ^ Z.of_nat w - 1) w) w (convs A B) (rsum (convs (wires rho (limbs q)) Mm) (wires rho (limbs r)))).
Proof.
  intros w B' Ha Hb Hm WA WB WM Hn. unfold mult_mod.
  do 2 sstep. intros w1 Hw1. unfold width_agreement in Hw1.
  destruct (Nat.eqb_spec (limb_width (bparams a)) (limb_width (bparams b))) as [W1|]; [|discriminate].
  injection Hw1 as <-. fold w. do 2 sstep. intros na _. do 2 sstep. intros nb _.
  do 2 sstep. intros ql Hql. unfold quotient_limbs in Hql.
  destruct (Nat.eqb_spec w 0) as [|W0]; [discriminate|]. clear Hql.
  do 2 sstep. apply alloc_from_nat_swp. intros q Hq Lq.
  assert (Pq : limb_width (bparams q) = w /\ max_word (bparams q) = 2 ^ Z.of_nat w - 1).
  { rewrite Hq. split; auto. change (max_word (params_new w ql)) with (int_with_n_ones w). apply int_with_n_ones_spec. }
  destruct Pq as [Pw Pm].
  do 2 sstep. eapply (wf_range rho); auto. intros HR. rewrite Pw, width1_pos in HR by lia.
  do 2 sstep. apply alloc_from_nat_swp. intros r Hr Lr. rewrite (ev_length _ _ _ Hm) in Lr.
  assert (Pr : limb_width (bparams r) = w /\ max_word (bparams r) = 2 ^ Z.of_nat w - 1).
  { rewrite Hr. split; auto. change (max_word (params_new w (length (limbs m)))) with (int_with_n_ones w). apply int_with_n_ones_spec. }
  destruct Pr as [Prw Prm].
  do 2 sstep. eapply (wf_range rho); auto. intros HRr. rewrite Prw, width1_pos in HRr by lia.
  set (Q := wires rho (limbs q)) in *. set (R := wires rho (limbs r)) in *.
  assert (HQ : ev rho (limbs q) Q) by apply ev_wires.
  assert (HRe : ev rho (limbs r) R) by apply ev_wires.
  assert (LQ : length (limbs q) = length Q) by (unfold Q, wires; now rewrite map_length).
  do 2 sstep. eapply swp_mono; [apply (alloc_product_swp rho md (to_poly a) (to_poly b) A B); auto; lia|].
  intros lhs Hlhs. cbv beta in Hlhs. fold (convs A B) in Hlhs.
  do 2 sstep.
  eapply swp_mono; [apply (swp_imp md rho _ (Z.of_nat (length Q + length Mm - 1) < modulus));
    intros HP; exact (alloc_product_swp rho md (to_poly q) (to_poly m) Q Mm HQ Hm HP)|].
  intros rp Hrp. cbv beta in Hrp. fold (convs Q Mm) in Hrp. do 2 sstep.
  eapply swp_mono.
  { apply (swp_imp md rho _ (Z.of_nat (length Q + length Mm - 1) < modulus /\
      group_no_wrap (mod_word a b m (length Q) (2 ^ Z.of_nat w - 1) w) w)).
    intros [HP HN].
    eapply (two_sides_zero_swp md lhs rp w (left_max_word a b) q m r (convs A B) Q Mm R); auto.
    - unfold left_max_word. rewrite (ev_length _ _ _ Ha), (ev_length _ _ _ Hb). apply conv_list_bound; auto.
    - unfold in_word. rewrite Pm. eapply Forall_impl; [|exact HR]. cbv beta. lia.
    - unfold in_word. rewrite Prm. eapply Forall_impl; [|exact HRr]. cbv beta. lia.
    - rewrite Prm. pose proof (pow2_pos w). lia.
    - unfold mod_word, product_word in HN. unfold left_max_word, right_max_word.
      rewrite Pm, Prm, LQ. exact HN. }
  cbv beta. intros _ HV. sstep. rewrite LQ. intros HP HN. specialize (HV (conj HP HN)).
  unfold mod_word, product_word. unfold left_max_word, right_max_word in HV. rewrite Pm, Prm, LQ in HV. exact HV.
Qed.

Lemma red_mod_zero_swp md a m A Mm :
  let w := limb_width (bparams a) in
  let B' := 2 ^ Z.of_nat w in
  ev rho (limbs a) A -> ev rho (limbs m) Mm -> in_word a A -> in_word m Mm ->
  (forall ql, quotient_limbs (w * (n_limbs (bparams a) - 1) + bigint_bits (max_word (bparams a))) (min_bits (bparams m)) w = Ok ql ->
     Z.of_nat (ql + length Mm - 1) < modulus /\
     group_no_wrap (Z.max (max_word (bparams a))
       (product_word ql (2 ^ Z.of_nat w - 1) (length Mm) (max_word (bparams m)) + (2 ^ Z.of_nat w - 1))) w) ->
  swp md rho (red_mod a m) (fun r =>
    exists ql Q, quotient_limbs (w * (n_limbs (bparams a) - 1) + bigint_bits (max_word (bparams a))) (min_bits (bparams m)) w = Ok ql /\
      length Q = ql /\ Forall (fun v => 0 <= v < B') Q /\ value_of B' A = value_of B' Q * value_of B' Mm + value_of B' (wires rho (limbs r)) /\
      sides_zero (Z.max (max_word (bparams a))
        (product_word ql (2 ^ Z.of_nat w - 1) (length Mm) (max_word (bparams m)) + (2 ^ Z.of_nat w - 1))) w A (rsum (convs Q Mm) (wires rho (limbs r)))).
Proof.
  intros w B' Ha Hm WA WM HN. unfold red_mod.
  do 2 sstep. intros w1 Hw1. unfold width_agreement in Hw1.
  destruct (Nat.eqb_spec (limb_width (bparams a)) (limb_width (bparams m))) as [W1|]; [|discriminate].
  injection Hw1 as <-. fold w. do 2 sstep. intros na Hna. unfold n_bits in Hna.
  destruct (_ <? _)%nat; [|discriminate]. injection Hna as <-. fold w.
  do 2 sstep. intros ql Hql. pose proof Hql as Hql0. specialize (HN _ Hql). destruct HN as [HP HN]. unfold quotient_limbs in Hql.
  destruct (Nat.eqb_spec w 0) as [|W0]; [discriminate|]. clear Hql.
  do 2 sstep. apply alloc_from_nat_swp. intros q Hq Lq.
  assert (Pq : limb_width (bparams q) = w /\ max_word (bparams q) = 2 ^ Z.of_nat w - 1).
  { rewrite Hq. split; auto. change (max_word (params_new w ql)) with (int_with_n_ones w). apply int_with_n_ones_spec. }
  destruct Pq as [Pw Pm].
  do 2 sstep. eapply (wf_range rho); auto. intros HR. rewrite Pw, width1_pos in HR by lia.
  do 2 sstep. apply alloc_from_nat_swp. intros r Hr Lr. rewrite (ev_length _ _ _ Hm) in Lr.
  assert (Pr : limb_width (bparams r) = w /\ max_word (bparams r) = 2 ^ Z.of_nat w - 1).
  { rewrite Hr. split; auto. change (max_word (params_new w (length (limbs m)))) with (int_with_n_ones w). apply int_with_n_ones_spec. }
  destruct Pr as [Prw Prm].
  do 2 sstep. eapply (wf_range rho); auto. intros HRr. rewrite Prw, width1_pos in HRr by lia.
  set (Q := wires rho (limbs q)) in *. set (R := wires rho (limbs r)) in *.
  assert (HQ : ev rho (limbs q) Q) by apply ev_wires.
  assert (HRe : ev rho (limbs r) R) by apply ev_wires.
  assert (LQ : length Q = ql) by (unfold Q, wires; now rewrite map_length).
  do 2 sstep. eapply swp_mono; [apply (alloc_product_swp rho md (to_poly q) (to_poly m) Q Mm); auto; lia|].
  intros rp Hrp. cbv beta in Hrp. fold (convs Q Mm) in Hrp. do 2 sstep.
  assert (WQ : in_word q Q).
  { unfold in_word. rewrite Pm. eapply Forall_impl; [|exact HR]. cbv beta. lia. }
  assert (WR : in_word r R).
  { unfold in_word. rewrite Prm. eapply Forall_impl; [|exact HRr]. cbv beta. lia. }
  assert (B1 : Forall (fun d => 0 <= d <= Z.of_nat (Nat.min (length Q) (length Mm)) * max_word (bparams q) * max_word (bparams m))
     (convs Q Mm)) by (apply conv_list_bound; auto).
  assert (C0 : 0 <= Z.of_nat (Nat.min (length Q) (length Mm)) * max_word (bparams q) * max_word (bparams m)).
  { pose proof (conv_bound Q Mm 0 _ _ WQ WM). lia. }
  eapply swp_mono; [eapply (regroup_swp rho one md a
     (from_poly (poly_sum rp (to_poly r)) w (right_max_word q m r)) A (rsum (convs Q Mm) R))|];
    rewrite ?from_poly_bparams; cbn [limbs max_word limb_width from_poly]; auto.
  - apply (poly_sum_ev rho rp (to_poly r)); auto.
  - unfold right_max_word. rewrite (ev_length _ _ _ HQ), (ev_length _ _ _ Hm). apply rsum_bound; auto.
    rewrite Prm. pose proof (pow2_pos w). lia.
  - unfold right_max_word. rewrite (ev_length _ _ _ HQ), (ev_length _ _ _ Hm), LQ, Pm, Prm. exact HN.
  - cbv beta. rewrite rsum_value, convs_value. fold w. fold B'. intros _ (_ & _ & _ & HV & HZ). sstep.
    exists ql, Q. split; [exact Hql0|]. split; [exact LQ|]. split; [exact HR|]. split; [exact HV|].
    unfold right_max_word in HZ. rewrite (ev_length _ _ _ HQ), (ev_length _ _ _ Hm), LQ, Pm, Prm in HZ. exact HZ.
Qed.
End Rho.

(** Every quotient and remainder the constraints accept, exactly. *)
Lemma top_mult_mod_prover wit a b m A B Mm Q R s q r s' rho0 :
  let w := limb_width (bparams a) in
  let X := 2 ^ Z.of_nat w in
  let M := Z.max (product_word (length A) (max_word (bparams a)) (length B) (max_word (bparams b)))
     (product_word (length (limbs q)) (X - 1) (length Mm) (max_word (bparams m)) + (X - 1)) in
  let g := group_size M w in
  good_for rho0 s -> bignat_for rho0 s a A -> bignat_for rho0 s b B -> bignat_for rho0 s m Mm ->
  run wit (mult_mod a b m) s = (Ok (q, r), s') -> A <> [] -> B <> [] -> Mm <> [] -> (1 <= w)%nat -> (w < NUM_BITS)%nat ->
  Z.of_nat (length A + length B) <= modulus -> Z.of_nat (length (limbs q) + length Mm) <= modulus ->
  group_no_wrap M w -> group_room M w ->
  ((exists rho, same_on s rho rho0 /\ sat rho s' /\ wires rho (limbs q) = Q /\ wires rho (limbs r) = R) <->
   length Q = length (limbs q) /\ length R = length Mm /\
   Forall (fun v => 0 <= v < X) Q /\ Forall (fun v => 0 <= v < X) R /\
   value_of X A * value_of X B = value_of X Q * value_of X Mm + value_of X R /\
   no_excess g A B Q Mm R).
Proof.
  intros w X M g G Ha Hb Hm Hr HA HB HM Hw HwN L1 L2 Hn Hroom.
  pose proof (same_on_refl s rho0) as R0. pose proof W as [_ W2 _ _].
  pose proof (bignat_for_is _ _ _ _ _ wit G Ha R0 (proj1 (G _ R0))) as [(Ea0 & _ & NA & CA & _) _].
  pose proof (bignat_for_is _ _ _ _ _ wit G Hb R0 (proj1 (G _ R0))) as [(Eb0 & _ & NB & CB & _) _].
  pose proof (bignat_for_is _ _ _ _ _ wit G Hm R0 (proj1 (G _ R0))) as [(Em0 & _ & NM & CM & _) _].
  assert (HLA : (1 <= length A)%nat) by (destruct A; [congruence|cbn; lia]).
  assert (HLB : (1 <= length B)%nat) by (destruct B; [congruence|cbn; lia]).
  assert (HLM : (1 <= length Mm)%nat) by (destruct Mm; [congruence|cbn; lia]).
  assert (Hwd : limb_width (bparams b) = w).
  { destruct (Nat.eqb_spec (limb_width (bparams a)) (limb_width (bparams b))) as [|D]; auto.
    exfalso. apply Nat.eqb_neq in D. unfold mult_mod, width_agreement in Hr. rewrite D in Hr. discriminate. }
  assert (HLQ : length (limbs q) = q_limbs (n_bits_of a + n_bits_of b) (min_bits (bparams m)) w).
  { refine (rets_run wit _ _ (fun qr => length (limbs (fst qr)) = q_limbs (n_bits_of a + n_bits_of b) (min_bits (bparams m)) w) _ _ _ Hr).
    unfold mult_mod, width_agreement. rewrite Hwd. fold w. rewrite Nat.eqb_refl. cbn [lift bind].
    rewrite (n_bits_ok a), (n_bits_ok b) by lia. cbn [lift bind].
    unfold quotient_limbs. rewrite (proj2 (Nat.eqb_neq w 0)) by lia. cbn [lift bind].
    apply rets_bind, rets_ns. eapply rets_mono; [apply rets_alloc_nat|]. cbv beta. intros q0 [_ Hq0].
    do 5 (apply rets_skip; intros ?). cbv zeta. apply rets_skip; intros ?. exact Hq0. }
  assert (HLQ1 : (1 <= length (limbs q))%nat) by (rewrite HLQ; unfold q_limbs; apply Nat.le_add_l).
  split.
  - intros (rho & Hso & Hs & EQ & ER).
    destruct (bignat_for_is _ _ _ _ _ wit G Ha Hso (proj1 Hs)) as [(Ea & _) Wa].
    destruct (bignat_for_is _ _ _ _ _ wit G Hb Hso (proj1 Hs)) as [(Eb & _) Wb].
    destruct (bignat_for_is _ _ _ _ _ wit G Hm Hso (proj1 Hs)) as [(Em & _) Wm].
    assert (HM1 : mod_word a b m (length (limbs q)) (2 ^ Z.of_nat (limb_width (bparams a)) - 1) (limb_width (bparams a)) = M).
    { unfold mod_word. rewrite (ev_length _ _ _ Ea0), (ev_length _ _ _ Eb0), (ev_length _ _ _ Em0). reflexivity. }
    pose proof (swp_run_any _ _ _ _ _ _ _ Hr Hs (mult_mod_swp rho (proj1 Hs) Any a b m A B Mm Ea Eb Em Wa Wb Wm ltac:(lia))) as K.
    pose proof (swp_run_any _ _ _ _ _ _ _ Hr Hs (mult_mod_zero_swp rho (proj1 Hs) Any a b m A B Mm Ea Eb Em Wa Wb Wm ltac:(lia))) as K'.
    cbv beta iota zeta in K, K'. rewrite HM1 in K, K'. specialize (K ltac:(lia) Hn). specialize (K' ltac:(lia) Hn).
    destruct K as (K1 & K2 & K3 & K4 & K5 & K6 & K7).
    unfold int_of in K7. unfold range_wires in K5, K6. rewrite K2, K3 in K7. fold w in K5, K6, K7, K'. fold X in K5, K6, K7.
    rewrite EQ in K5, K7, K'. rewrite ER in K6, K7, K'.
    split; [rewrite <- EQ; apply wires_length|]. split; [rewrite <- ER, wires_length; exact K4|].
    repeat match goal with |- _ /\ _ => split end; auto.
    apply sides_zero_no_excess in K'; auto.
    + rewrite <- EQ, wires_length. exact HLQ1.
    + eapply ranges_nonneg; eassumption.
    + apply canons_nonneg, CM.
    + eapply ranges_nonneg; eassumption.
  - intros (LQ & LR & RQ & RR & HV & HX).
    assert (CQ : Forall canon Q) by now apply (range_canon w).
    assert (CR : Forall canon R) by now apply (range_canon w).
    destruct (awp_run wit (mult_mod a b m) s rho0 (range_aux w Q ++ range_aux w R ++ mod_aux w M (convs A B) (convs Q Mm) R)
      (fun rho qr => is_bn rho (md_of wit) (fst qr) Q /\ is_bn rho (md_of wit) (snd qr) R) (q, r) s' G) as (rho & H1 & H2 & H3); [|exact Hr|].
    { intros rho Hso one.
      destruct (bignat_for_is _ _ _ _ _ wit G Ha Hso one) as [Ia Wa].
      destruct (bignat_for_is _ _ _ _ _ wit G Hb Hso one) as [Ib Wb].
      destruct (bignat_for_is _ _ _ _ _ wit G Hm Hso one) as [Im Wm].
      pose proof (mult_mod_awp rho one (md_of wit) a b m A B Mm Q R) as H. cbv zeta in H. unfold mod_word in H.
      rewrite (ev_length _ _ _ Ea0), (ev_length _ _ _ Eb0), (ev_length _ _ _ Em0), LQ in H. fold w in H. fold X in H. fold M in H.
      eapply awp_mono; [apply H; auto; clear H|].
      - apply md_of_not.
      - apply sides_zero_no_excess; auto; try (eapply ranges_nonneg; eassumption); try (cbn [length]; lia); try (apply canons_nonneg, CM).
      - apply md_of_not.
      - cbv beta. tauto. }
    exists rho. split; auto. split; [apply H2, same_on_refl|].
    destruct (H3 rho (same_on_refl _ _)) as ((K1 & _) & (K2 & _)). cbn [fst snd] in *. split; apply ev_canon; auto.
Qed.

Lemma convs_one A : (1 <= length A)%nat -> convs A [1] = A.
Proof.
  intros LA. apply (nth_ext _ _ 0 0); [rewrite convs_length; cbn [length]; lia|]. intros i Hi. rewrite convs_nth by (cbn; lia).
  unfold conv. cbn [sum_n]. rewrite Nat.sub_diag. cbn [nth]. rewrite (sum_n_ext _ _ (fun _ => 0)), sum_n_zero; [ring|].
  intros j Hj. destruct (i - j)%nat as [|[|k]] eqn:Hk; [lia|cbn [nth]; ring|cbn [nth]; ring].
Qed.

Lemma top_red_mod_prover wit a m A Mm R s r s' rho0 :
  let w := limb_width (bparams a) in
  let X := 2 ^ Z.of_nat w in
  let ql := q_limbs (n_bits_of a) (min_bits (bparams m)) w in
  let M := Z.max (max_word (bparams a)) (product_word ql (X - 1) (length Mm) (max_word (bparams m)) + (X - 1)) in
  let g := group_size M w in
  good_for rho0 s -> bignat_for rho0 s a A -> bignat_for rho0 s m Mm ->
  run wit (red_mod a m) s = (Ok r, s') -> A <> [] -> Mm <> [] -> (1 <= w)%nat -> (w < NUM_BITS)%nat ->
  Z.of_nat (ql + length Mm) <= modulus -> group_no_wrap M w -> group_room M w ->
  ((exists rho, same_on s rho rho0 /\ sat rho s' /\ wires rho (limbs r) = R) <->
   length R = length Mm /\ Forall (fun v => 0 <= v < X) R /\
   exists Q, length Q = ql /\ Forall (fun v => 0 <= v < X) Q /\
     value_of X A = value_of X Q * value_of X Mm + value_of X R /\ no_excess g A [1] Q Mm R).
Proof.
  intros w X ql M g G Ha Hm Hr HA HM Hw HwN L1 Hn Hroom.
  pose proof (same_on_refl s rho0) as R0. pose proof W as [_ W2 _ _].
  pose proof (bignat_for_is _ _ _ _ _ wit G Ha R0 (proj1 (G _ R0))) as [(Ea0 & _ & NA & CA & _) _].
  pose proof (bignat_for_is _ _ _ _ _ wit G Hm R0 (proj1 (G _ R0))) as [(Em0 & _ & NM & CM & _) _].
  assert (HLA : (1 <= length A)%nat) by (destruct A; [congruence|cbn; lia]).
  assert (HLM : (1 <= length Mm)%nat) by (destruct Mm; [congruence|cbn; lia]).
  assert (Hwd : limb_width (bparams m) = w).
  { destruct (Nat.eqb_spec (limb_width (bparams a)) (limb_width (bparams m))) as [|D]; auto.
    exfalso. apply Nat.eqb_neq in D. unfold red_mod, width_agreement in Hr. rewrite D in Hr. discriminate. }
  assert (HLQ1 : (1 <= ql)%nat) by (unfold ql, q_limbs; apply Nat.le_add_l).
  assert (HK : forall ql', quotient_limbs (n_bits_of a) (min_bits (bparams m)) w = Ok ql' -> ql' = ql).
  { intros ql' Hq. unfold quotient_limbs in Hq. destruct (Nat.eqb_spec w 0); [discriminate|]. injection Hq as <-. reflexivity. }
  split.
  - intros (rho & Hso & Hs & ER).
    destruct (bignat_for_is _ _ _ _ _ wit G Ha Hso (proj1 Hs)) as [(Ea & _) Wa].
    destruct (bignat_for_is _ _ _ _ _ wit G Hm Hso (proj1 Hs)) as [(Em & _) Wm].
    assert (HN : forall ql', quotient_limbs (w * (n_limbs (bparams a) - 1) + bigint_bits (max_word (bparams a))) (min_bits (bparams m)) w = Ok ql' ->
       Z.of_nat (ql' + length Mm - 1) < modulus /\
       group_no_wrap (Z.max (max_word (bparams a))
         (product_word ql' (2 ^ Z.of_nat w - 1) (length Mm) (max_word (bparams m)) + (2 ^ Z.of_nat w - 1))) w).
    { intros ql' Hq. rewrite (HK _ Hq). split; [lia|exact Hn]. }
    pose proof (swp_run_any _ _ _ _ _ _ _ Hr Hs (red_mod_swp rho (proj1 Hs) Any a m A Mm Ea Em Wa Wm HN)) as K.
    pose proof (swp_run_any _ _ _ _ _ _ _ Hr Hs (red_mod_zero_swp rho (proj1 Hs) Any a m A Mm Ea Em Wa Wm HN)) as K'.
    cbv beta in K, K'. destruct K as (K1 & K2 & K3 & K4 & _).
    destruct K' as (ql' & Q & Hq & LQ & RQ & HV & HZ). fold w in HV, HZ, RQ, Hq. fold X in HV, HZ, RQ.
    rewrite (HK _ Hq) in LQ, HZ. fold M in HZ. rewrite ER in HV, HZ. unfold range_wires in K4. rewrite ER in K4.
    split; [rewrite <- ER, wires_length; exact K3|]. split; [exact K4|].
    exists Q. repeat match goal with |- _ /\ _ => split end; auto.
    rewrite <- (convs_one A HLA) in HZ at 1.
    apply sides_zero_no_excess in HZ; auto; try (eapply ranges_nonneg; eassumption); try (cbn [length]; lia); try (apply canons_nonneg, CM).
  - intros (LR & RR & Q & LQ & RQ & HV & HX).
    destruct (awp_run wit (red_mod a m) s rho0 (range_aux w Q ++ range_aux w R ++ convs Q Mm ++ regroup_aux M w A (rsum (convs Q Mm) R))
      (fun rho r => is_bn rho (md_of wit) r R) r s' G) as (rho & H1 & H2 & H3); [|exact Hr|].
    { intros rho Hso one.
      destruct (bignat_for_is _ _ _ _ _ wit G Ha Hso one) as [Ia Wa].
      destruct (bignat_for_is _ _ _ _ _ wit G Hm Hso one) as [Im Wm].
      pose proof (red_mod_awp rho one (md_of wit) a m A Mm Q R) as H. cbv zeta in H. rewrite LQ in H. fold w in H. fold X in H. fold M in H.
      eapply awp_mono; [apply H; auto; clear H|].
      - rewrite <- (convs_one A HLA) at 1.
        apply sides_zero_no_excess; auto; try (eapply ranges_nonneg; eassumption); try (cbn [length]; lia); try (apply canons_nonneg, CM).
      - apply md_of_not.
      - cbv beta. tauto. }
    exists rho. split; auto. split; [apply H2, same_on_refl|].
    destruct (H3 rho (same_on_refl _ _)) as (K1 & _). apply ev_canon; auto. now apply (range_canon w).
Qed.

Lemma top_apm_prover wit a b m r A B Mm R Q s q s' rho0 :
  let w := limb_width (bparams a) in
  let X := 2 ^ Z.of_nat w in
  let ql := (length A + length B)%nat in
  let M := Z.max (product_word (length A) (max_word (bparams a)) (length B) (max_word (bparams b)))
     (product_word ql (X - 1) (length Mm) (max_word (bparams m)) + max_word (bparams r)) in
  let g := group_size M w in
  good_for rho0 s -> bignat_for rho0 s a A -> bignat_for rho0 s b B -> bignat_for rho0 s m Mm -> bignat_for rho0 s r R ->
  run wit (assert_product_mod a b m r) s = (Ok q, s') ->
  A <> [] -> B <> [] -> Mm <> [] -> R <> [] -> (1 <= w)%nat -> (w < NUM_BITS)%nat ->
  Z.of_nat (length A + length B + length Mm) <= modulus -> group_no_wrap M w -> group_room M w ->
  ((exists rho, same_on s rho rho0 /\ sat rho s' /\ wires rho (limbs q) = Q) <->
   length Q = ql /\ Forall (fun v => 0 <= v < X) Q /\
   value_of X A * value_of X B = value_of X Q * value_of X Mm + value_of X R /\ no_excess g A B Q Mm R).
Proof.
  intros w X ql M g G Ha Hb Hm Hrr Hr HA HB HM HR Hw HwN L1 Hn Hroom.
  pose proof (same_on_refl s rho0) as R0. pose proof W as [_ W2 _ _].
  pose proof (bignat_for_is _ _ _ _ _ wit G Ha R0 (proj1 (G _ R0))) as [(Ea0 & _ & NA & CA & _) _].
  pose proof (bignat_for_is _ _ _ _ _ wit G Hb R0 (proj1 (G _ R0))) as [(Eb0 & _ & NB & CB & _) _].
  pose proof (bignat_for_is _ _ _ _ _ wit G Hm R0 (proj1 (G _ R0))) as [(Em0 & _ & NM & CM & _) _].
  pose proof (bignat_for_is _ _ _ _ _ wit G Hrr R0 (proj1 (G _ R0))) as [(Er0 & _ & NR & CR & _) WR0].
  apply nonempty_length in HA, HB, HM, HR.
  assert (R1 : 0 <= max_word (bparams r)) by (eapply in_word_max; eauto).
  assert (Hwd : limb_width (bparams b) = w /\ limb_width (bparams m) = w /\ limb_width (bparams r) = w).
  { unfold assert_product_mod, width_agreement in Hr.
    destruct (Nat.eqb_spec (limb_width (bparams a)) (limb_width (bparams b))) as [D1|]; [|discriminate].
    destruct (Nat.eqb_spec (limb_width (bparams a)) (limb_width (bparams m))) as [D2|]; [|discriminate].
    destruct (Nat.eqb_spec (limb_width (bparams a)) (limb_width (bparams r))) as [D3|]; [|discriminate].
    unfold w. auto. }
  destruct Hwd as (Hw1 & Hw2 & Hw3).
  assert (HM1 : mod_word a b m (length A + length B) (max_word (bparams r)) (limb_width (bparams a)) = M).
  { unfold mod_word. rewrite (ev_length _ _ _ Ea0), (ev_length _ _ _ Eb0), (ev_length _ _ _ Em0). reflexivity. }
  split.
  - intros (rho & Hso & Hs & EQ).
    destruct (bignat_for_is _ _ _ _ _ wit G Ha Hso (proj1 Hs)) as [(Ea & _) Wa].
    destruct (bignat_for_is _ _ _ _ _ wit G Hb Hso (proj1 Hs)) as [(Eb & _) Wb].
    destruct (bignat_for_is _ _ _ _ _ wit G Hm Hso (proj1 Hs)) as [(Em & _) Wm].
    destruct (bignat_for_is _ _ _ _ _ wit G Hrr Hso (proj1 Hs)) as [(Er & _) Wr].
    pose proof (assert_product_mod_swp rho (proj1 Hs) Any a b m r A B Mm R Ea Eb Em Er Wa Wb Wm Wr R1 ltac:(lia)) as K.
    pose proof (assert_product_mod_zero_swp rho (proj1 Hs) Any a b m r A B Mm R Ea Eb Em Er Wa Wb Wm Wr R1 ltac:(lia)) as K'.
    cbv zeta in K, K'. rewrite HM1 in K, K'.
    pose proof (swp_run_any _ _ _ _ _ _ _ Hr Hs (K Hn)) as (_ & _ & _ & K4 & K5 & K6 & K7).
    pose proof (swp_run_any _ _ _ _ _ _ _ Hr Hs (K' Hn)) as K8. cbv beta in K8. clear K K'.
    unfold int_of in K7. unfold range_wires in K6. rewrite K4 in K7. fold w in K6, K7, K8. fold X in K6, K7.
    rewrite EQ in K6, K7, K8.
    assert (LQ : length Q = ql) by (rewrite <- EQ, wires_length; exact K5).
    repeat match goal with |- _ /\ _ => split end; auto.
    apply sides_zero_no_excess in K8; auto; try (eapply ranges_nonneg; eassumption); try (unfold ql in LQ; lia);
      first [apply canons_nonneg, CM|apply canons_nonneg, CR].
  - intros (LQ & RQ & HV & HX).
    destruct (awp_run wit (assert_product_mod a b m r) s rho0 (range_aux w Q ++ mod_aux w M (convs A B) (convs Q Mm) R)
      (fun rho q => is_bn rho (md_of wit) q Q) q s' G) as (rho & H1 & H2 & H3); [|exact Hr|].
    { intros rho Hso one.
      destruct (bignat_for_is _ _ _ _ _ wit G Ha Hso one) as [Ia Wa].
      destruct (bignat_for_is _ _ _ _ _ wit G Hb Hso one) as [Ib Wb].
      destruct (bignat_for_is _ _ _ _ _ wit G Hm Hso one) as [Im Wm].
      destruct (bignat_for_is _ _ _ _ _ wit G Hrr Hso one) as [Ir Wr].
      pose proof (assert_product_mod_awp rho one (md_of wit) a b m r A B Mm Q R) as H. cbv zeta in H. rewrite LQ in H.
      unfold ql in H. rewrite HM1 in H. fold w in H. fold X in H.
      eapply awp_mono; [apply H; auto; clear H|].
      - apply sides_zero_no_excess; auto; try (eapply ranges_nonneg; eassumption); try (unfold ql in LQ; lia);
          first [apply canons_nonneg, CM|apply canons_nonneg, CR].
      - apply md_of_not.
      - cbv beta. tauto. }
    exists rho. split; auto. split; [apply H2, same_on_refl|].
    destruct (H3 rho (same_on_refl _ _)) as (K1 & _). apply ev_canon; auto. now apply (range_canon w).
Qed.

(** ** Honest runs *)
Lemma top_verify_mult_verdict a b p A B P s :
  let w := limb_width (bparams a) in
  let M := Z.max (product_word (length A) (max_word (bparams a)) (length B) (max_word (bparams b))) (max_word (bparams p)) in
  let g := group_size M w in
  good s -> bignat_at s a A -> bignat_at s b B -> bignat_at s p P ->
  limb_width (bparams b) = w -> limb_width (bparams p) = w -> (1 <= w)%nat -> A <> [] -> B <> [] -> P <> [] ->
  group_no_wrap M w -> group_room M w ->
  exists s', run true (verify_mult a b p) s = (Ok tt, s') /\
    (good s' <-> value_of (2 ^ Z.of_nat w) P = value_of (2 ^ Z.of_nat w) A * value_of (2 ^ Z.of_nat w) B /\
       forall i, (common_limbs g (length A + length B - 1) (length P) <= i)%nat -> conv A B i = 0 /\ nth i P 0 = 0).
Proof.
  intros w M g G Ha Hb Hp W1 W2 Hw HA HB HP HN HG. apply nonempty_length in HA, HB, HP.
  destruct (dec_run (verify_mult a b p) s
    (value_of (2 ^ Z.of_nat w) A * value_of (2 ^ Z.of_nat w) B = value_of (2 ^ Z.of_nat w) P /\ sides_zero M w (convs A B) P)
    (fun _ _ => True) G) as ([] & s' & H1 & _ & H2).
  { intros rho Hag one. destruct (bignat_at_is _ _ _ _ Ha Hag one) as [Ia Wa].
    destruct (bignat_at_is _ _ _ _ Hb Hag one) as [Ib Wb]. destruct (bignat_at_is _ _ _ _ Hp Hag one) as [Ip Wp].
    assert (HMM : M = Z.max (mult_word a b) (max_word (bparams p))).
    { unfold mult_word. now rewrite (proj1 (proj2 (proj2 Ia))), (proj1 (proj2 (proj2 Ib))). }
    clearbody M. subst M. apply verify_mult_dec; auto. }
  exists s'. split; auto. rewrite H2. unfold sides_zero, common_limbs. fold g. rewrite convs_length.
  split; (intros [HV HZ]; split; [congruence|]); intros i Hi; specialize (HZ i Hi); rewrite convs_nth in * by auto; exact HZ.
Qed.

Lemma top_mult_verdict a b A B s :
  let w := limb_width (bparams a) in
  let M := Z.max (product_word (length A) (max_word (bparams a)) (length B) (max_word (bparams b))) (2 ^ Z.of_nat w - 1) in
  let g := group_size M w in
  let n := (length A + length B)%nat in
  let P := value_of (2 ^ Z.of_nat w) A * value_of (2 ^ Z.of_nat w) B in
  good s -> bignat_at s a A -> bignat_at s b B -> limb_width (bparams b) = w ->
  A <> [] -> B <> [] -> (1 <= w)%nat -> (w < NUM_BITS)%nat -> P < 2 ^ Z.of_nat (w * n) ->
  group_no_wrap M w -> group_room M w ->
  exists p s' D, run true (mult a b) s = (Ok p, s') /\ bignat_at s' p D /\ length D = n /\ value p = Some P /\
    (good s' <-> P < 2 ^ Z.of_nat (w * (n_groups (n - 1) g * g))).
Proof.
  intros w M g n P G Ha Hb W1 HA HB Hw HwN HP HN HG. apply nonempty_length in HA, HB. pose proof (pow2_pos w) as HX.
  assert (P0 : 0 <= P) by (apply Z.mul_nonneg_nonneg; eapply bignat_at_nonneg; eauto; lia).
  set (D := map (digit w P) (seq 0 n)).
  destruct (digits_facts w n P ltac:(lia)) as (LD & RD & VD). fold D in LD, RD, VD.
  destruct (dec_run (mult a b) s (P < 2 ^ Z.of_nat (w * (n_groups (n - 1) g * g)))
    (fun rho p => is_bn rho Honest p D /\ in_word p D /\ limb_width (bparams p) = w) G) as (p & s' & H1 & H2 & H3).
  { intros rho Hag one. destruct (bignat_at_is _ _ _ _ Ha Hag one) as [Ia Wa].
    destruct (bignat_at_is _ _ _ _ Hb Hag one) as [Ib Wb].
    assert (HMM : M = Z.max (mult_word a b) (2 ^ Z.of_nat w - 1)).
    { unfold mult_word. now rewrite (proj1 (proj2 (proj2 Ia))), (proj1 (proj2 (proj2 Ib))). }
    unfold g. clear g. clearbody M. subst M. apply mult_dec; auto. }
  exists p, s', D. destruct (H2 _ (agree_asg s')) as (Q1 & Q2 & Q3).
  split; auto. split; [apply is_bignat_at; [intros rho Hrho; apply (H2 _ Hrho)|auto]|]. split; auto. split; auto.
  rewrite (is_bn_value _ _ _ _ Q1 eq_refl), Q3. now rewrite VD.
Qed.

Lemma top_mult_mod_verdict a b m A B Mm s :
  let w := limb_width (bparams a) in
  let X := 2 ^ Z.of_nat w in
  let ql := q_limbs (n_bits_of a + n_bits_of b) (min_bits (bparams m)) w in
  let M := Z.max (product_word (length A) (max_word (bparams a)) (length B) (max_word (bparams b)))
     (product_word ql (X - 1) (length Mm) (max_word (bparams m)) + (X - 1)) in
  let g := group_size M w in
  let P := value_of X A * value_of X B in
  good s -> bignat_at s a A -> bignat_at s b B -> bignat_at s m Mm ->
  limb_width (bparams b) = w -> limb_width (bparams m) = w \/ length Mm = 1%nat ->
  A <> [] -> B <> [] -> Mm <> [] -> (1 <= w)%nat -> (w < NUM_BITS)%nat ->
  0 < value_of X Mm <= 2 ^ Z.of_nat (w * length Mm) ->
  P / value_of X Mm < 2 ^ Z.of_nat (w * ql) ->
  group_no_wrap M w -> group_room M w ->
  exists q r s' Q R, run true (mult_mod a b m) s = (Ok (q, r), s') /\
    bignat_at s' q Q /\ bignat_at s' r R /\ length Q = ql /\ length R = length Mm /\
    Forall (fun v => 0 <= v < X) Q /\ Forall (fun v => 0 <= v < X) R /\
    value_of X Q = P / value_of X Mm /\ value_of X R = P mod value_of X Mm /\
    value q = Some (P / value_of X Mm) /\ value r = Some (P mod value_of X Mm) /\
    (good s' <-> no_excess g A B Q Mm R).
Proof.
  intros w X ql M g P G Ha Hb Hm Hwb Hwm HA HB HM Hw HwN [HM0 HM1] Hq HN HG.
  apply nonempty_length in HA, HB, HM. pose proof (pow2_pos w) as HX.
  assert (P0 : 0 <= P) by (apply Z.mul_nonneg_nonneg; eapply bignat_at_nonneg; eauto; unfold X; lia).
  pose proof (Z.mod_pos_bound P (value_of X Mm) HM0) as Hmod.
  pose proof (Z.div_pos P (value_of X Mm) P0 HM0) as Hdiv.
  destruct (digits_facts w ql (P / value_of X Mm) ltac:(lia)) as (LQ & RQ & VQ).
  destruct (digits_facts w (length Mm) (P mod value_of X Mm) ltac:(lia)) as (LR & RR & VR).
  set (Q := map (digit w (P / value_of X Mm)) (seq 0 ql)) in *.
  set (R := map (digit w (P mod value_of X Mm)) (seq 0 (length Mm))) in *. fold X in VQ, VR, RQ, RR.
  destruct (dec_run (mult_mod a b m) s (no_excess g A B Q Mm R) (fun rho qr =>
    is_bn rho Honest (fst qr) Q /\ is_bn rho Honest (snd qr) R /\ in_word (fst qr) Q /\ in_word (snd qr) R /\
    bparams (fst qr) = params_new w ql /\ bparams (snd qr) = params_new w (length Mm)) G) as ([q r] & s' & H1 & H2 & H3).
  { intros rho Hag one. destruct (bignat_at_is _ _ _ _ Ha Hag one) as [Ia Wa].
    destruct (bignat_at_is _ _ _ _ Hb Hag one) as [Ib Wb]. destruct (bignat_at_is _ _ _ _ Hm Hag one) as [Im Wm].
    assert (HMM : mod_word a b m ql (X - 1) w = M).
    { unfold mod_word. rewrite (ev_length _ _ _ (proj1 Ia)), (ev_length _ _ _ (proj1 Ib)), (ev_length _ _ _ (proj1 Im)). reflexivity. }
    unfold g. rewrite <- HMM in *. apply mult_mod_dec; auto. }
  exists q, r, s', Q, R. destruct (H2 _ (agree_asg s')) as (Q1 & Q2 & Q3 & Q4 & Q5 & Q6). cbn [fst snd] in *.
  split; auto.
  split; [apply is_bignat_at; [intros rho Hrho; apply (H2 _ Hrho)|auto]|].
  split; [apply is_bignat_at; [intros rho Hrho; apply (H2 _ Hrho)|auto]|].
  do 6 (split; auto).
  rewrite (is_bn_value _ _ _ _ Q1 eq_refl), (is_bn_value _ _ _ _ Q2 eq_refl), Q5, Q6. cbn [params_new limb_width]. fold X.
  rewrite VQ, VR. auto.
Qed.

Lemma top_apm_verdict a b m r A B Mm R s :
  let w := limb_width (bparams a) in
  let X := 2 ^ Z.of_nat w in
  let ql := (length A + length B)%nat in
  let M := Z.max (product_word (length A) (max_word (bparams a)) (length B) (max_word (bparams b)))
     (product_word ql (X - 1) (length Mm) (max_word (bparams m)) + max_word (bparams r)) in
  let g := group_size M w in
  let P := value_of X A * value_of X B in
  good s -> bignat_at s a A -> bignat_at s b B -> bignat_at s m Mm -> bignat_at s r R ->
  limb_width (bparams b) = w -> limb_width (bparams m) = w -> limb_width (bparams r) = w ->
  A <> [] -> B <> [] -> Mm <> [] -> R <> [] -> (1 <= w)%nat -> (w < NUM_BITS)%nat ->
  0 < value_of X Mm -> P / value_of X Mm < 2 ^ Z.of_nat (w * ql) ->
  group_no_wrap M w -> group_room M w ->
  exists q s' Q, run true (assert_product_mod a b m r) s = (Ok q, s') /\
    bignat_at s' q Q /\ length Q = ql /\ Forall (fun v => 0 <= v < X) Q /\
    value_of X Q = P / value_of X Mm /\ value q = Some (P / value_of X Mm) /\
    (good s' <-> value_of X R = P mod value_of X Mm /\ no_excess g A B Q Mm R).
Proof.
  intros w X ql M g P G Ha Hb Hm Hr Hwb Hwm Hwr HA HB HM HR Hw HwN HM0 Hq HN HG.
  apply nonempty_length in HA, HB, HM, HR. pose proof (pow2_pos w) as HX.
  assert (P0 : 0 <= P) by (apply Z.mul_nonneg_nonneg; eapply bignat_at_nonneg; eauto; unfold X; lia).
  pose proof (Z.div_pos P (value_of X Mm) P0 HM0) as Hdiv.
  destruct (digits_facts w ql (P / value_of X Mm) ltac:(lia)) as (LQ & RQ & VQ).
  set (Q := map (digit w (P / value_of X Mm)) (seq 0 ql)) in *. fold X in VQ, RQ.
  destruct (dec_run (assert_product_mod a b m r) s (value_of X R = P mod value_of X Mm /\ no_excess g A B Q Mm R) (fun rho q =>
    is_bn rho Honest q Q /\ in_word q Q /\ bparams q = params_new w ql) G) as (q & s' & H1 & H2 & H3).
  { intros rho Hag one. destruct (bignat_at_is _ _ _ _ Ha Hag one) as [Ia Wa].
    destruct (bignat_at_is _ _ _ _ Hb Hag one) as [Ib Wb]. destruct (bignat_at_is _ _ _ _ Hm Hag one) as [Im Wm].
    destruct (bignat_at_is _ _ _ _ Hr Hag one) as [Ir Wr].
    assert (HMM : mod_word a b m ql (max_word (bparams r)) w = M).
    { unfold mod_word. rewrite (ev_length _ _ _ (proj1 Ia)), (ev_length _ _ _ (proj1 Ib)), (ev_length _ _ _ (proj1 Im)). reflexivity. }
    unfold g. rewrite <- HMM in *. apply apm_dec; auto. eapply in_word_max; eauto. }
  exists q, s', Q. destruct (H2 _ (agree_asg s')) as (Q1 & Q3 & Q5).
  split; auto.
  split; [apply is_bignat_at; [intros rho Hrho; apply (H2 _ Hrho)|auto]|].
  do 3 (split; auto).
  rewrite (is_bn_value _ _ _ _ Q1 eq_refl), Q5. cbn [params_new limb_width]. fold X. rewrite VQ. auto.
Qed.

Lemma top_red_mod_verdict a m A Mm s :
  let w := limb_width (bparams a) in
  let X := 2 ^ Z.of_nat w in
  let ql := q_limbs (n_bits_of a) (min_bits (bparams m)) w in
  let M := Z.max (max_word (bparams a)) (product_word ql (X - 1) (length Mm) (max_word (bparams m)) + (X - 1)) in
  let g := group_size M w in
  let P := value_of X A in
  good s -> bignat_at s a A -> bignat_at s m Mm -> limb_width (bparams m) = w ->
  A <> [] -> Mm <> [] -> (1 <= w)%nat -> (w < NUM_BITS)%nat ->
  0 < value_of X Mm <= 2 ^ Z.of_nat (w * length Mm) ->
  P / value_of X Mm < 2 ^ Z.of_nat (w * ql) ->
  group_no_wrap M w -> group_room M w ->
  exists r s' Q R, run true (red_mod a m) s = (Ok r, s') /\
    bignat_at s' r R /\ length Q = ql /\ length R = length Mm /\
    Forall (fun v => 0 <= v < X) Q /\ Forall (fun v => 0 <= v < X) R /\
    value_of X Q = P / value_of X Mm /\ value_of X R = P mod value_of X Mm /\
    value r = Some (P mod value_of X Mm) /\
    (good s' <-> no_excess g A [1] Q Mm R).
Proof.
  intros w X ql M g P G Ha Hm Hwm HA HM Hw HwN [HM0 HM1] Hq HN HG.
  apply nonempty_length in HA, HM. pose proof (pow2_pos w) as HX.
  assert (P0 : 0 <= P) by (eapply bignat_at_nonneg; eauto; unfold X; lia).
  pose proof (Z.mod_pos_bound P (value_of X Mm) HM0) as Hmod.
  pose proof (Z.div_pos P (value_of X Mm) P0 HM0) as Hdiv.
  destruct (digits_facts w ql (P / value_of X Mm) ltac:(lia)) as (LQ & RQ & VQ).
  destruct (digits_facts w (length Mm) (P mod value_of X Mm) ltac:(lia)) as (LR & RR & VR).
  set (Q := map (digit w (P / value_of X Mm)) (seq 0 ql)) in *.
  set (R := map (digit w (P mod value_of X Mm)) (seq 0 (length Mm))) in *. fold X in VQ, VR, RQ, RR.
  destruct (dec_run (red_mod a m) s (no_excess g A [1] Q Mm R) (fun rho r =>
    is_bn rho Honest r R /\ in_word r R /\ bparams r = params_new w (length Mm)) G) as (r & s' & H1 & H2 & H3).
  { intros rho Hag one. destruct (bignat_at_is _ _ _ _ Ha Hag one) as [Ia Wa].
    destruct (bignat_at_is _ _ _ _ Hm Hag one) as [Im Wm]. apply red_mod_dec; auto. }
  exists r, s', Q, R. destruct (H2 _ (agree_asg s')) as (Q1 & Q3 & Q5).
  split; auto.
  split; [apply is_bignat_at; [intros rho Hrho; apply (H2 _ Hrho)|auto]|].
  do 6 (split; auto).
  rewrite (is_bn_value _ _ _ _ Q1 eq_refl), Q5. cbn [params_new limb_width]. fold X. rewrite VR. auto.
Qed.

End TopExact.
