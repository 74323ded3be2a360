(** Determined wires, continued: bits, quotients, trees of choices and whole circuits (C101). *)
From Coq Require Import String ZArith Znumtheory Bool List Lia Setoid Morphisms ZifyBool ZifyNat.
From Verif.Model Require Import Base CS Bellpepper Util Poly Bignat Gadget.
From Verif.Spec Require Import Spec SpecExpr SpecUnique.
From Verif.Proofs Require Import Field Arith Convert Limbs Wp Lc BitNum PolyP BoolP BignatEq BignatAlloc Group Carry Regroup Mult MultC TopBits TopPoly TopBignat1 PureOps TopPure Owp Pwp
  TopBignat2 MuxP MedianP MinBits SubP Ewp Relation Expr Unique UniqueG.
Import ListNotations.
Local Open Scope Z_scope.

Section UniqueC.
Context {E : Env} {W : Wf E}.

Lemma red_sides_swp rho (one : rho ONE = 1) md a q m r rp w A Q Mm R :
  limb_width (bparams a) = w -> ev rho (limbs a) A -> in_word a A ->
  ev rho (p_coeffs rp) (convs Q Mm) -> ev rho (limbs r) R -> ev rho (limbs q) Q -> ev rho (limbs m) Mm ->
  in_word q Q -> in_word m Mm -> in_word r R -> 0 <= max_word (bparams r) ->
  group_no_wrap (Z.max (max_word (bparams a)) (right_max_word q m r)) w ->
  swp md rho (equal_when_carried_regroup a (from_poly (poly_sum rp (to_poly r)) w (right_max_word q m r))) (fun _ =>
    value_of (2 ^ Z.of_nat w) A = value_of (2 ^ Z.of_nat w) Q * value_of (2 ^ Z.of_nat w) Mm + value_of (2 ^ Z.of_nat w) R).
Proof.
  intros Wa HA WA HP HR HQ HM WQ WM WR R0 HN.
  assert (B1 : Forall (fun d => 0 <= d <= Z.of_nat (Nat.min (length Q) (length Mm)) * max_word (bparams q) * max_word (bparams m))
     (convs Q Mm)) by (apply conv_list_bound; auto).
  assert (C0 : 0 <= Z.of_nat (Nat.min (length Q) (length Mm)) * max_word (bparams q) * max_word (bparams m)).
  { pose proof (conv_bound Q Mm 0 _ _ WQ WM). lia. }
  eapply swp_mono; [eapply (regroup_swp rho one md a
     (from_poly (poly_sum rp (to_poly r)) w (right_max_word q m r)) A (rsum (convs Q Mm) R))|];
    rewrite ?from_poly_bparams; cbn [limbs max_word limb_width from_poly]; auto.
  - apply (poly_sum_ev rho rp (to_poly r)); auto.
  - unfold right_max_word. rewrite (ev_length _ _ _ HQ), (ev_length _ _ _ HM). apply rsum_bound; auto.
  - rewrite Wa. exact HN.
  - cbv beta. rewrite rsum_value, convs_value, Wa. tauto.
Qed.

Context (r1 r2 : assignment) (one1 : r1 ONE = 1) (one2 : r2 ONE = 1).
Notation uwp := (uwp r1 r2).
Notation same := (same r1 r2).
Notation leq := (leq r1 r2).

(** ** Bits *)
Lemma bn_decompose_uwp b : (limb_width (bparams b) < NUM_BITS)%nat -> Forall leq (limbs b) ->
  uwp (bn_decompose b) (fun bv l => bv_bits bv = map lc_var l /\ map b_lc (bv_allocs bv) = map lc_var l /\ Forall same l).
Proof.
  intros HW HL. unfold bn_decompose. ustep. rewrite limb_nums_seq, mapM_map. cbn [fst snd].
  apply (uwp_mapM _ _ _ (fun _ bv l => bv_bits bv = map lc_var l /\ map b_lc (bv_allocs bv) = map lc_var l /\ Forall same l)).
  - intros i _. ustep. ustep. intros n Hn. ustep. eapply uwp_mono; [apply num_decompose_uwp; auto|cbv beta; cbn [app]; auto].
    rewrite (limb_num_lc _ _ _ Hn). now apply leq_nth.
  - intros bs Hbs. ustep. cbn [bv_bits bv_allocs]. rewrite app_nil_r.
    assert (G : Forall (fun p => bv_bits (fst p) = map lc_var (snd p) /\ map b_lc (bv_allocs (fst p)) = map lc_var (snd p) /\ Forall same (snd p)) bs)
      by (eapply Forall2_snd; [exact Hbs|auto]). clear Hbs.
    induction G as [|b0 bs (H1 & H2 & H3) _ IH]; [cbn; auto|]. cbn [map List.concat flat_map].
    destruct IH as (I1 & I2 & I3). rewrite !map_app, I1, I2, H1, H2. split; [reflexivity|]. split; [reflexivity|]. apply Forall_app; auto.
Qed.
Lemma into_bits_leq bv bits : bv_into_bits bv = Ok bits -> Forall leq (bv_bits bv) -> Forall (fun b => leq (b_lc b)) bits.
Proof. intros H HL. apply into_bits_lc in H. rewrite <- H in HL. apply (proj1 (Forall_map b_lc leq bits)) in HL. exact HL. Qed.

Lemma full_bits_uwp b : (limb_width (bparams b) < NUM_BITS)%nat -> Forall leq (limbs b) ->
  uwp (enforce_full_bits b) (fun _ l => Forall same l).
Proof.
  intros HW HL. unfold enforce_full_bits. ustep. ustep. intros v _. ustep. ustep. intros [lc rest] Hp.
  destruct (vec_pop (limbs b)) as [[l1 r]|] eqn:Hl; [|discriminate]. injection Hp as <- <-. apply vec_pop_inv in Hl.
  rewrite Hl in HL. apply Forall_app in HL. destruct HL as [_ HL]. inversion HL as [|? ? HL1 _]; subst.
  ustep. ustep. eapply uwp_mono; [apply num_decompose_uwp; auto|]. cbv beta. intros bv l (_ & _ & Hs).
  ustep. ustep. intros bits _. ustep. ustep. intros [x y] _. ustep. ustep. unfold bit_constrain_value. ustep. intros _ _. ustep. fsame.
Qed.
Lemma sum_bits_leq bits : Forall (fun b => leq (b_lc b)) bits -> leq (sum_bits bits).
Proof.
  induction 1 as [|b bits H _ IH]; [apply leq_zero|]. change (sum_bits (b :: bits)) with (lc_add (b_lc b) (sum_bits bits)). now apply leq_add.
Qed.
Lemma min_bits_uwp b k : (limb_width (bparams b) < NUM_BITS)%nat -> Forall leq (limbs b) ->
  uwp (enforce_min_bits b k) (fun _ l => Forall same l).
Proof.
  intros HW HL. unfold enforce_min_bits. ustep. ustep. eapply uwp_mono; [apply bn_decompose_uwp; auto|]. cbv beta.
  intros bv l (H1 & _ & Hs). ustep. ustep. intros bits Hb. ustep. ustep. intros j _. cbv zeta. ustep. ustep. intros x v.
  ustep. ustep. intros C1 C2. ustep.
  assert (HB : Forall (fun b => leq (b_lc b)) (skipn j bits)).
  { eapply into_bits_leq in Hb; [|rewrite H1; apply leq_vars; exact Hs]. rewrite <- (firstn_skipn j bits) in Hb. now apply Forall_app in Hb. }
  apply sum_bits_leq in HB. unfold leq in HB. lcs_in C1. lcs_in C2. rewrite one1 in C1. rewrite one2 in C2.
  assert (Hx : same x).
  { unfold same. apply (eqp_cancel (lc_eval r2 (sum_bits (skipn j bits)))).
    - intros K. rewrite K, Z.mul_0_r in C2. apply eqp_1_0. now symmetry.
    - rewrite <- HB at 1. rewrite !(Z.mul_comm (lc_eval _ _)). now rewrite C1, C2. }
  fsame.
Qed.

(** ** Copies *)
Lemma copy_same c x : leq c -> eqp (lc_eval r1 c) (r1 x) -> eqp (lc_eval r2 c) (r2 x) -> same x.
Proof. unfold leq, same. intros H H1 H2. now rewrite <- H1, <- H2. Qed.
Lemma combine_leq ls p : Forall leq ls -> In p (combine (seq 0 (length ls)) ls) -> leq (snd p).
Proof. intros H Hp. destruct p as [i c]. apply in_combine_r in Hp. rewrite Forall_forall in H. cbn [snd]. auto. Qed.
Lemma inputize_uwp b : Forall leq (limbs b) -> uwp (bn_inputize b) (fun _ l => Forall same l).
Proof.
  intros HL. unfold bn_inputize. apply (uwp_iterM _ _ _ (fun _ l => Forall same l)).
  - intros p Hp. ustep. ustep. ustep. intros x v. ustep. intros C1 C2. lcs_in C1. lcs_in C2.
    assert (Hx : same x); [|fsame]. apply (copy_same (snd p)); [eapply combine_leq; eauto| |]; symmetry; now apply (proj1 (eqp_sub_0 _ _)).
  - intros vs Hvs. apply Forall_concat_in. eapply Forall2_snd; [exact Hvs|]. auto.
Qed.
Lemma gadget_inputize_uwp b : Forall leq (limbs b) -> uwp (gadget_inputize b) (fun _ l => Forall same l).
Proof.
  intros HL. unfold gadget_inputize. apply (uwp_iterM _ _ _ (fun _ l => Forall same l)).
  - intros p Hp. ustep. ustep. ustep. intros x v. ustep. intros C1 C2. lcs_in C1. lcs_in C2.
    assert (Hx : same x); [|fsame]. apply (copy_same (snd p)); [eapply combine_leq; eauto| |]; symmetry; now apply (proj1 (eqp_sub_0 _ _)).
  - intros vs Hvs. apply Forall_concat_in. eapply Forall2_snd; [exact Hvs|]. auto.
Qed.
Lemma as_nums_uwp b : Forall leq (limbs b) -> uwp (as_nums b) (fun _ l => Forall same l).
Proof.
  intros HL. unfold as_nums. apply (uwp_mapM _ _ _ (fun _ _ l => Forall same l)).
  - intros p Hp. ustep. ustep. unfold an_alloc. ustep. ustep. intros x v. ustep. ustep. ustep. cbn [an_var]. intros C1 C2. lcs_in C1. lcs_in C2. ustep.
    assert (Hx : same x); [|fsame]. apply (copy_same (snd p)); [eapply combine_leq; eauto| |]; now apply (proj1 (eqp_sub_0 _ _)).
  - intros vs Hvs. apply Forall_concat_in. apply Forall_map. eapply Forall2_snd; [exact Hvs|]. auto.
Qed.
Lemma as_sapling_uwp n : leq (n_lc n) -> uwp (as_sapling_allocated_num n) (fun a l => same (an_var a) /\ Forall same l).
Proof.
  intros HL. unfold as_sapling_allocated_num. ustep. ustep. unfold an_alloc. ustep. ustep. intros x v. ustep. ustep. ustep. cbn [an_var].
  intros C1 C2. lcs_in C1. lcs_in C2. ustep. cbn [an_var].
  assert (Hx : same x); [|split; [exact Hx|fsame]]. apply (copy_same (n_lc n) x HL); symmetry; now apply (proj1 (eqp_sub_0 _ _)).
Qed.

(** ** Products with a rest *)
Lemma poly_sum_leq a b : Forall leq (p_coeffs a) -> Forall leq (p_coeffs b) -> Forall leq (p_coeffs (poly_sum a b)).
Proof.
  intros HA HB. unfold poly_sum. cbn [p_coeffs]. apply Forall_map, Forall_forall. intros i _. apply leq_add; now apply leq_nth.
Qed.
Lemma div_det m q1 x1 q2 x2 : 0 <= x1 < m -> 0 <= x2 < m -> q1 * m + x1 = q2 * m + x2 -> q1 = q2 /\ x1 = x2.
Proof. intros H1 H2 H. assert (q1 = q2) by nia. subst. lia. Qed.
Lemma range_int w b rho : limb_width (bparams b) = w -> range_wires rho w b -> 0 <= int_of rho b.
Proof.
  intros <- H. apply value_of_nonneg; [apply Z.lt_le_incl, pow2_pos|]. eapply Forall_impl; [|exact H]. cbv beta. lia.
Qed.
Lemma wires_leq ls : Forall leq ls -> wires r2 ls = wires r1 ls.
Proof. intros H. symmetry. now apply leq_wires. Qed.

Lemma apm_uwp a b m r :
  let w := limb_width (bparams a) in
  Forall leq (limbs a) -> Forall leq (limbs b) -> Forall leq (limbs m) -> Forall leq (limbs r) ->
  bounded r1 a -> bounded r1 b -> bounded r1 m -> bounded r1 r -> 0 <= max_word (bparams r) ->
  Z.of_nat (length (limbs a) + length (limbs b) + length (limbs m) - 1) < modulus -> (w < NUM_BITS)%nat ->
  group_no_wrap (mod_word a b m (length (limbs a) + length (limbs b)) (max_word (bparams r)) w) w ->
  int_of r1 m <> 0 ->
  uwp (assert_product_mod a b m r) (fun q l => Forall leq (limbs q) /\ Forall same l).
Proof.
  intros w HA HB HM HR BA BB BM BR R0 HN HW HG NZ. apply bounded_in_word in BA, BB, BM, BR.
  pose proof (assert_product_mod_swp r1 one1 Any a b m r _ _ _ _ (ev_wires r1 _) (ev_wires r1 _) (ev_wires r1 _) (ev_wires r1 _) BA BB BM BR R0) as K1. cbv zeta in K1.
  pose proof (assert_product_mod_swp r2 one2 Any a b m r _ _ _ _ (ev_leq_ev _ _ _ _ HA (ev_wires r1 _)) (ev_leq_ev _ _ _ _ HB (ev_wires r1 _))
    (ev_leq_ev _ _ _ _ HM (ev_wires r1 _)) (ev_leq_ev _ _ _ _ HR (ev_wires r1 _)) BA BB BM BR R0) as K2. cbv zeta in K2.
  rewrite !wires_length in K1, K2. specialize (K1 HN HG). specialize (K2 HN HG). fold w in K1, K2.
  eapply uwp_mono; [apply (uwp_both _ _ _ _ _ (fun q l => Forall leq (limbs q) -> Forall same l) K1 K2)|].
  - unfold assert_product_mod. do 2 ustep. intros w1 _. do 2 ustep. intros w2 _. do 2 ustep. intros w3 _. fold w. do 2 ustep.
    apply alloc_from_nat_uwp. intros q l Lq Pq Ll.
    assert (Pw : limb_width (bparams q) = w /\ max_word (bparams q) = 2 ^ Z.of_nat w - 1) by (rewrite Pq, params_word; auto). destruct Pw as [Pw Pm].
    do 2 ustep. eapply uwp_mono; [apply (uwp_imp _ _ _ (Forall leq (limbs q))); intros HL; apply assert_well_formed_uwp; auto; rewrite Pw; exact HW|].
    cbv beta. intros _ l1 H1. do 2 ustep. eapply uwp_mono; [apply alloc_product_uwp; cbn [to_poly p_coeffs]; auto; lia|]. cbv beta. intros lhs l2 [HL2 H2].
    do 2 ustep. eapply uwp_mono; [apply (uwp_imp _ _ _ (Forall leq (limbs q))); intros HL; apply alloc_product_uwp; cbn [to_poly p_coeffs]; auto|].
    { rewrite Lq, map_length, Ll. exact HN. }
    cbv beta. intros rp l3 H3. do 2 ustep.
    eapply uwp_mono; [apply (uwp_imp _ _ _ (Forall leq (limbs q))); intros HL; apply regroup_uwp; auto|].
    + cbn [limbs from_poly]. apply poly_sum_leq; auto. now apply H3.
    + rewrite !from_poly_bparams. cbn [max_word limb_width]. unfold left_max_word, right_max_word. unfold mod_word, product_word in HG.
      rewrite Pm, Lq, map_length, Ll. exact HG.
    + cbv beta. intros _ l4 H4. ustep. intros HL. specialize (H1 HL). destruct (H3 HL) as [_ H3']. specialize (H4 HL).
      rewrite Lq in HL. apply leq_vars in HL. fsame.
  - cbv beta. intros q l ((_ & W2 & _ & W4 & _ & Q1 & V1) & (_ & _ & _ & _ & _ & Q2 & V2) & Hl).
    assert (HL : Forall leq (limbs q)); [|auto]. eapply det_limbs; eauto.
    unfold int_of in NZ. rewrite W2 in NZ. nia.
Qed.

Lemma divides_uwp a b :
  let w := limb_width (bparams a) in
  Forall leq (limbs a) -> Forall leq (limbs b) -> bounded r1 a -> bounded r1 b ->
  n_limbs (bparams a) = length (limbs a) -> n_limbs (bparams b) = length (limbs b) ->
  Z.of_nat (length (limbs a) + length (limbs b) - 1) < modulus -> (w < NUM_BITS)%nat ->
  group_no_wrap (Z.max (product_word (length (limbs a)) (max_word (bparams a)) (length (limbs b)) (2 ^ Z.of_nat w - 1)) (max_word (bparams b))) w ->
  int_of r1 a <> 0 -> uwp (divides a b) (fun _ l => Forall same l).
Proof.
  intros w HA HB BA BB NA NB HN HW HG NZ. apply bounded_in_word in BA, BB. unfold divides.
  do 2 ustep. intros w1 Hw1. unfold width_agreement in Hw1.
  destruct (Nat.eqb_spec (limb_width (bparams a)) (limb_width (bparams b))) as [W1|]; [|discriminate].
  clear w1 Hw1. rewrite <- W1. fold w. do 2 ustep. apply alloc_from_nat_uwp. intros q l Lq Pq Ll. rewrite NB in *.
  assert (Pw : limb_width (bparams q) = w /\ max_word (bparams q) = 2 ^ Z.of_nat w - 1) by (rewrite Pq, params_word; auto). destruct Pw as [Pw Pm].
  do 2 ustep. eapply uwp_mono; [apply uwp_both;
      [apply assert_well_formed_swp; exact one1|apply assert_well_formed_swp; exact one2|
       apply (uwp_imp _ _ _ (Forall leq (limbs q))); intros HL; apply assert_well_formed_uwp; auto; rewrite Pw; exact HW]|].
  cbv beta. intros _ l1 (R1 & R2 & H1). rewrite Pw in R1, R2.
  assert (Lq' : length (limbs q) = length (limbs b)) by (rewrite Lq, map_length; exact Ll).
  assert (HG' : group_no_wrap (Z.max (mult_word a q) (max_word (bparams b))) (limb_width (bparams a))).
  { unfold mult_word. rewrite NA, Pm, Pq. cbn [n_limbs params_new]. exact HG. }
  assert (NQ : n_limbs (bparams q) = length (limbs q)) by (rewrite Pq, Lq'; reflexivity).
  assert (HN' : Z.of_nat (length (limbs a) + length (limbs q) - 1) < modulus) by (rewrite Lq'; exact HN).
  destruct (Nat.eq_dec w 0) as [W0|W0].
  { ustep. unfold verify_mult. do 2 ustep. intros w1 Hw1. do 2 ustep. intros _ _. do 2 ustep.
    eapply uwp_mono; [apply uwp_true|]. intros pp l2 _. ustep. unfold equal_when_carried_regroup. do 2 ustep. intros w' Hw'. unfold width_agreement in Hw'.
    destruct (_ =? _)%nat; [|discriminate]. injection Hw' as <-. do 2 ustep. intros room _. do 2 ustep. intros g Hg.
    try rewrite from_poly_bparams in Hg. cbn [limb_width] in Hg. replace (limb_width _) with 0%nat in Hg by (try rewrite from_poly_bparams; cbn [limb_width]; congruence). discriminate. }
  rewrite width1_pos in R1, R2 by lia.
  assert (Q1 : in_word q (wires r1 (limbs q))) by (unfold in_word; rewrite Pm; eapply Forall_impl; [|exact R1]; cbv beta; lia).
  assert (Q2 : in_word q (wires r2 (limbs q))) by (unfold in_word; rewrite Pm; eapply Forall_impl; [|exact R2]; cbv beta; lia).
  pose proof (verify_mult_swp r1 one1 Any a q b _ _ _ (ev_wires r1 _) (ev_wires r1 _) (ev_wires r1 _) BA Q1 BB) as K1. cbv zeta in K1.
  pose proof (verify_mult_swp r2 one2 Any a q b _ _ _ (ev_leq_ev _ _ _ _ HA (ev_wires r1 _)) (ev_wires r2 _) (ev_leq_ev _ _ _ _ HB (ev_wires r1 _)) BA Q2 BB) as K2. cbv zeta in K2.
  rewrite !wires_length in K1, K2. specialize (K1 NA NQ HN' HG'). specialize (K2 NA NQ HN' HG').
  ustep. eapply uwp_mono; [apply (uwp_both _ _ _ _ _ (fun _ l => Forall leq (limbs q) -> Forall same l) K1 K2);
    apply (uwp_imp _ _ _ (Forall leq (limbs q))); intros HL; apply verify_mult_uwp; auto|].
  cbv beta. fold w. intros _ l2 ((_ & _ & _ & V1 & _) & (_ & _ & _ & V2 & _) & H2).
  assert (HL : Forall leq (limbs q)).
  { eapply det_limbs; [exact Pw|exact R1|exact R2|]. unfold int_of in *. rewrite Pw. fold w in NZ. nia. }
  specialize (H1 HL). specialize (H2 HL). rewrite Lq in HL. apply leq_vars in HL. fsame.
Qed.

Lemma mult_mod_uwp a b m :
  let w := limb_width (bparams a) in
  Forall leq (limbs a) -> Forall leq (limbs b) -> Forall leq (limbs m) -> bounded r1 a -> bounded r1 b -> bounded r1 m ->
  Z.of_nat (length (limbs a) + length (limbs b) - 1) < modulus -> (w < NUM_BITS)%nat ->
  uwp (mult_mod a b m) (fun qr l => let '(q, r) := qr in
    Z.of_nat (length (limbs q) + length (limbs m) - 1) < modulus ->
    group_no_wrap (mod_word a b m (length (limbs q)) (2 ^ Z.of_nat w - 1) w) w -> limb_width (bparams m) = w ->
    int_of r1 r < int_of r1 m -> int_of r2 r < int_of r1 m ->
    Forall leq (limbs q) /\ Forall leq (limbs r) /\ Forall same l).
Proof.
  intros w HA HB HM BA BB BM HN HW. apply bounded_in_word in BA, BB, BM.
  pose proof (mult_mod_swp r1 one1 Any a b m _ _ _ (ev_wires r1 _) (ev_wires r1 _) (ev_wires r1 _) BA BB BM) as K1. cbv zeta in K1.
  pose proof (mult_mod_swp r2 one2 Any a b m _ _ _ (ev_leq_ev _ _ _ _ HA (ev_wires r1 _)) (ev_leq_ev _ _ _ _ HB (ev_wires r1 _)) (ev_leq_ev _ _ _ _ HM (ev_wires r1 _)) BA BB BM) as K2. cbv zeta in K2.
  rewrite !wires_length in K1, K2. specialize (K1 HN). specialize (K2 HN). fold w in K1, K2.
  eapply uwp_mono; [apply (uwp_both _ _ _ _ _ (fun qr l => Z.of_nat (length (limbs (fst qr)) + length (limbs m) - 1) < modulus ->
    group_no_wrap (mod_word a b m (length (limbs (fst qr))) (2 ^ Z.of_nat w - 1) w) w ->
    Forall leq (limbs (fst qr)) -> Forall leq (limbs (snd qr)) -> Forall same l) K1 K2)|].
  - unfold mult_mod. do 2 ustep. intros w1 Hw1. unfold width_agreement in Hw1. destruct (_ =? _)%nat; [|discriminate]. injection Hw1 as <-. fold w.
    do 2 ustep. intros na _. do 2 ustep. intros nb _. do 2 ustep. intros ql _. do 2 ustep.
    apply alloc_from_nat_uwp. intros q l Lq Pq Ll.
    assert (Pw : limb_width (bparams q) = w /\ max_word (bparams q) = 2 ^ Z.of_nat w - 1) by (rewrite Pq, params_word; auto). destruct Pw as [Pw Pm].
    do 2 ustep. eapply uwp_mono; [apply (uwp_imp _ _ _ (Forall leq (limbs q))); intros HL; apply assert_well_formed_uwp; auto; rewrite Pw; exact HW|].
    cbv beta. intros _ l1 H1. do 2 ustep. apply alloc_from_nat_uwp. intros r lr Lr Pr Llr.
    assert (Prw : limb_width (bparams r) = w /\ max_word (bparams r) = 2 ^ Z.of_nat w - 1) by (rewrite Pr, params_word; auto). destruct Prw as [Prw Prm].
    do 2 ustep. eapply uwp_mono; [apply (uwp_imp _ _ _ (Forall leq (limbs r))); intros HL; apply assert_well_formed_uwp; auto; rewrite Prw; exact HW|].
    cbv beta. intros _ l1' H1'.
    do 2 ustep. eapply uwp_mono; [apply alloc_product_uwp; cbn [to_poly p_coeffs]; auto; lia|]. cbv beta. intros lhs l2 [HL2 H2].
    do 2 ustep. eapply uwp_mono; [apply (uwp_imp _ _ _ (Forall leq (limbs q) /\ Z.of_nat (length (limbs q) + length (limbs m) - 1) < modulus)); intros [HL HS]; apply alloc_product_uwp; cbn [to_poly p_coeffs]; auto|].
    cbv beta. intros rp l3 H3. do 2 ustep.
    eapply uwp_mono; [apply (uwp_imp _ _ _ ((Forall leq (limbs q) /\ Z.of_nat (length (limbs q) + length (limbs m) - 1) < modulus) /\ Forall leq (limbs r) /\
      group_no_wrap (mod_word a b m (length (limbs q)) (2 ^ Z.of_nat w - 1) w) w)); intros (HLq & HLr & HG); apply regroup_uwp; auto|].
    + cbn [limbs from_poly]. apply poly_sum_leq; auto. now apply H3.
    + rewrite !from_poly_bparams. cbn [max_word limb_width]. unfold left_max_word, right_max_word. unfold mod_word, product_word in HG.
      rewrite Pm, Prm. exact HG.
    + cbv beta. intros _ l4 H4. ustep. cbn [fst snd]. intros HS HG HLq HLr. specialize (H1 HLq). specialize (H1' HLr). destruct (H3 (conj HLq HS)) as [_ H3'].
      specialize (H4 (conj (conj HLq HS) (conj HLr HG))). rewrite Lq in HLq. apply leq_vars in HLq. rewrite Lr in HLr. apply leq_vars in HLr. fsame.
  - cbv beta. intros [q r] l (A & B & Hl) HS HG Wm L1 L2. cbn [fst snd] in Hl.
    destruct (A HS HG) as (_ & Wq & Wr & _ & Q1 & R1 & V1). destruct (B HS HG) as (_ & _ & _ & _ & Q2 & R2 & V2).
    pose proof (range_int _ _ _ Wr R1) as P1. pose proof (range_int _ _ _ Wr R2) as P2.
    assert (VM : value_of (2 ^ Z.of_nat w) (wires r1 (limbs m)) = int_of r1 m) by (unfold int_of; now rewrite Wm). rewrite VM in V1, V2.
    destruct (div_det (int_of r1 m) (int_of r1 q) (int_of r1 r) (int_of r2 q) (int_of r2 r)) as [D1 D2]; [lia|lia|lia|].
    assert (HLq : Forall leq (limbs q)) by (eapply det_limbs; [exact Wq|exact Q1|exact Q2|exact D1]).
    assert (HLr : Forall leq (limbs r)) by (eapply det_limbs; [exact Wr|exact R1|exact R2|exact D2]).
    auto.
Qed.

Lemma red_mod_uwp a m :
  let w := limb_width (bparams a) in
  Forall leq (limbs a) -> Forall leq (limbs m) -> bounded r1 a -> bounded r1 m -> (w < NUM_BITS)%nat ->
  (forall ql, quotient_limbs (w * (n_limbs (bparams a) - 1) + bigint_bits (max_word (bparams a))) (min_bits (bparams m)) w = Ok ql ->
     Z.of_nat (ql + length (limbs m) - 1) < modulus /\
     group_no_wrap (Z.max (max_word (bparams a))
       (product_word ql (2 ^ Z.of_nat w - 1) (length (limbs m)) (max_word (bparams m)) + (2 ^ Z.of_nat w - 1))) w) ->
  uwp (red_mod a m) (fun r l => int_of r1 r < int_of r1 m -> int_of r2 r < int_of r1 m -> Forall leq (limbs r) /\ Forall same l).
Proof.
  intros w HA HM BA BM HW HN. apply bounded_in_word in BA, BM. unfold red_mod.
  do 2 ustep. intros w1 Hw1. unfold width_agreement in Hw1.
  destruct (Nat.eqb_spec (limb_width (bparams a)) (limb_width (bparams m))) as [W1|]; [|discriminate].
  injection Hw1 as <-. fold w. do 2 ustep. intros na Hna. unfold n_bits in Hna.
  destruct (_ <? _)%nat; [|discriminate]. injection Hna as <-. fold w.
  do 2 ustep. intros ql Hql. specialize (HN _ Hql). destruct HN as [HP HN]. unfold quotient_limbs in Hql.
  destruct (Nat.eqb_spec w 0) as [|W0]; [discriminate|]. clear Hql.
  do 2 ustep. apply alloc_from_nat_uwp. intros q l Lq Pq Ll.
  assert (Pw : limb_width (bparams q) = w /\ max_word (bparams q) = 2 ^ Z.of_nat w - 1) by (rewrite Pq, params_word; auto). destruct Pw as [Pw Pm].
  do 2 ustep. eapply uwp_mono; [apply uwp_both;
      [apply assert_well_formed_swp; exact one1|apply assert_well_formed_swp; exact one2|
       apply (uwp_imp _ _ _ (Forall leq (limbs q))); intros HL; apply assert_well_formed_uwp; auto; rewrite Pw; exact HW]|].
  cbv beta. intros _ l1 (Q1 & Q2 & H1). rewrite Pw, width1_pos in Q1, Q2 by lia.
  do 2 ustep. apply alloc_from_nat_uwp. intros r lr Lr Pr Llr.
  assert (Prw : limb_width (bparams r) = w /\ max_word (bparams r) = 2 ^ Z.of_nat w - 1) by (rewrite Pr, params_word; auto). destruct Prw as [Prw Prm].
  do 2 ustep. eapply uwp_mono; [apply uwp_both;
      [apply assert_well_formed_swp; exact one1|apply assert_well_formed_swp; exact one2|
       apply (uwp_imp _ _ _ (Forall leq (limbs r))); intros HL; apply assert_well_formed_uwp; auto; rewrite Prw; exact HW]|].
  cbv beta. intros _ l2 (X1 & X2 & H2). rewrite Prw, width1_pos in X1, X2 by lia.
  assert (Lq' : length (limbs q) = ql) by (rewrite Lq, map_length; exact Ll).
  assert (IQ1 : in_word q (wires r1 (limbs q))) by (unfold in_word; rewrite Pm; eapply Forall_impl; [|exact Q1]; cbv beta; lia).
  assert (IQ2 : in_word q (wires r2 (limbs q))) by (unfold in_word; rewrite Pm; eapply Forall_impl; [|exact Q2]; cbv beta; lia).
  assert (IR1 : in_word r (wires r1 (limbs r))) by (unfold in_word; rewrite Prm; eapply Forall_impl; [|exact X1]; cbv beta; lia).
  assert (IR2 : in_word r (wires r2 (limbs r))) by (unfold in_word; rewrite Prm; eapply Forall_impl; [|exact X2]; cbv beta; lia).
  assert (R0 : 0 <= max_word (bparams r)) by (rewrite Prm; pose proof (pow2_pos w); lia).
  assert (HG : group_no_wrap (Z.max (max_word (bparams a)) (right_max_word q m r)) w) by (unfold right_max_word; rewrite Pm, Prm, Lq'; exact HN).
  pose proof (ev_leq_ev _ _ _ _ HM (ev_wires r1 _)) as HM2. pose proof (ev_leq_ev _ _ _ _ HA (ev_wires r1 _)) as HA2.
  assert (S1 : Z.of_nat (length (wires r1 (limbs q)) + length (wires r1 (limbs m)) - 1) < modulus) by (rewrite !wires_length, Lq'; exact HP).
  assert (S2 : Z.of_nat (length (wires r2 (limbs q)) + length (wires r1 (limbs m)) - 1) < modulus) by (rewrite !wires_length, Lq'; exact HP).
  do 2 ustep. eapply uwp_mono; [apply uwp_both;
    [exact (alloc_product_swp r1 Any (to_poly q) (to_poly m) _ _ (ev_wires r1 (limbs q)) (ev_wires r1 (limbs m)) S1)|
     exact (alloc_product_swp r2 Any (to_poly q) (to_poly m) _ _ (ev_wires r2 (limbs q)) HM2 S2)|
     apply (uwp_imp _ _ _ (Forall leq (limbs q))); intros HL; apply alloc_product_uwp; cbn [to_poly p_coeffs]; auto; rewrite Lq'; exact HP]|].
  cbv beta. intros rp l3 (E1 & E2 & H3). fold (convs (wires r1 (limbs q)) (wires r1 (limbs m))) in E1. fold (convs (wires r2 (limbs q)) (wires r1 (limbs m))) in E2.
  do 2 ustep.
  eapply uwp_mono; [apply uwp_both;
    [exact (red_sides_swp r1 one1 Any a q m r rp w _ _ _ _ eq_refl (ev_wires r1 _) BA E1 (ev_wires r1 _) (ev_wires r1 _) (ev_wires r1 _) IQ1 BM IR1 R0 HG)|
     exact (red_sides_swp r2 one2 Any a q m r rp w _ _ _ _ eq_refl HA2 BA E2 (ev_wires r2 _) (ev_wires r2 _) HM2 IQ2 BM IR2 R0 HG)|
     apply (uwp_imp _ _ _ (Forall leq (limbs q) /\ Forall leq (limbs r))); intros [HLq HLr]; apply regroup_uwp; auto]|].
  - cbn [limbs from_poly]. apply poly_sum_leq; auto. now apply H3.
  - cbv beta. intros _ l4 (V1 & V2 & H4). ustep. intros L1 L2.
    pose proof (range_int _ _ _ Prw X1) as P1. pose proof (range_int _ _ _ Prw X2) as P2.
    unfold int_of in L1, L2, P1, P2. rewrite Prw in L1, L2, P1, P2. rewrite <- W1 in L1, L2. fold w in L1, L2.
    destruct (div_det _ _ _ _ _ (conj P1 L1) (conj P2 L2) (eq_trans (eq_sym V1) V2)) as [D1 D2].
    assert (HLq : Forall leq (limbs q)) by (eapply det_limbs; [exact Pw|exact Q1|exact Q2|unfold int_of; rewrite Pw; exact D1]).
    assert (HLr : Forall leq (limbs r)) by (eapply det_limbs; [exact Prw|exact X1|exact X2|unfold int_of; rewrite Prw; exact D2]).
    specialize (H1 HLq). specialize (H2 HLr). destruct (H3 HLq) as [_ H3']. specialize (H4 (conj HLq HLr)). split; [exact HLr|].
    rewrite Lq in HLq. apply leq_vars in HLq. rewrite Lr in HLr. apply leq_vars in HLr. fsame.
Qed.

(** ** Switches and trees *)
Definition shaped (b : bignat) : Prop := n_limbs (bparams b) = length (limbs b).
Lemma switch_uwp s i0 i1 : leq (b_lc s) -> Forall leq (limbs i0) -> Forall leq (limbs i1) -> shaped i0 -> shaped i1 ->
  uwp (switch s i0 i1) (fun o l => Forall leq (limbs (fst o)) /\ Forall leq (limbs (snd o)) /\ Forall same l).
Proof.
  intros HS H0 H1 S0 S1. unfold switch. do 2 ustep. eapply uwp_mono; [apply mux_uwp; auto|]. cbv beta. intros o0 l0 [[A _] A'].
  do 2 ustep. eapply uwp_mono; [apply mux_uwp; auto|].
  - unfold bit_not. cbn [b_lc]. apply leq_sub; auto. apply leq_var. now apply leq_one.
  - cbv beta. intros o1 l1 [[B _] B']. ustep. cbn [fst snd]. split; auto. split; auto. fsame.
Qed.
Lemma mux_tree_uwp bits : forall inputs, Forall (fun b => leq (b_lc b)) bits ->
  Forall (fun b => Forall leq (limbs b) /\ shaped b) inputs ->
  uwp (mux_tree bits inputs) (fun o l => (Forall leq (limbs o) /\ shaped o) /\ Forall same l).
Proof.
  induction bits as [|bit bits IH]; intros inputs HB HI; cbn [mux_tree].
  - destruct inputs as [|b [|? ?]]; try exact I. ustep. inversion HI; subst. split; [auto|constructor].
  - inversion HB as [|? ? B1 B2]; subst. destruct (negb _); [exact I|]. do 2 ustep.
    set (h := (length inputs / 2)%nat) in *. rewrite <- (firstn_skipn h inputs) in HI. apply Forall_app in HI. destruct HI as [I1 I2].
    eapply uwp_mono; [apply IH; [exact B2|exact I1]|]. cbv beta. intros x lx [[X1 X2] X3]. do 2 ustep.
    eapply uwp_mono; [apply IH; [exact B2|exact I2]|]. cbv beta. intros y ly [[Y1 Y2] Y3]. ustep.
    eapply uwp_mono; [apply mux_uwp; auto|]. cbv beta. intros o l [O1 O2]. split; [exact O1|]. fsame.
Qed.

(** ** Circuits for expressions *)
Section Circuit.
Context (w : nat) (ins : list (nat * Z)) (HI : ins_ok ins) (Hw : (1 <= w)%nat) (HwN : (w < NUM_BITS)%nat).
Context (xs : list bignat) (bs : list bit) (vs : list Z) (cs : list bool).
Context (HX : forall i b, nth_error xs i = Some b -> of_shape w (nth i ins (0%nat, 0%Z)) b /\ bounded r1 b /\ Forall leq (limbs b) /\ int_of r1 b = nth i vs 0).
Context (HB : forall i c, nth_error bs i = Some c -> wire_bit r1 (b_lc c) (nth i cs false) /\ leq (b_lc c)).

Lemma HX1 : forall i b, nth_error xs i = Some b -> of_shape w (nth i ins (0%nat, 0%Z)) b /\ bounded r1 b /\ int_of r1 b = nth i vs 0.
Proof. intros i b H. destruct (HX i b H) as (A & B & C & D). auto. Qed.
Lemma HB1 : forall i c, nth_error bs i = Some c -> wire_bit r1 (b_lc c) (nth i cs false).
Proof. intros i c H. apply (HB i c H). Qed.

Lemma swp_uwp {A} (m : prog A) : forall (Q1 : A -> Prop) (Q : A -> list var -> Prop),
  swp Any r1 m Q1 -> uwp m Q -> uwp m (fun a l => Q1 a /\ Q a l).
Proof. induction m as [a|e| |inp nm wv k IH|nm c k IH|nm k IH|k IH]; simpl; intros Q1 Q H1 H; auto. Qed.

Lemma circuit_uwp e : in_room w ins (length bs) e -> uwp (circuit xs bs e) (fun b l => Forall leq (limbs b) /\ Forall same l).
Proof.
  assert (J : forall e, in_room w ins (length bs) e -> uwp (circuit xs bs e) (fun b l => Forall leq (limbs b) /\ Forall same l) ->
    uwp (circuit xs bs e) (fun b l => (computes r1 w ins vs cs e b /\ fits w ins vs cs e) /\ (Forall leq (limbs b) /\ Forall same l))).
  { intros e0 HR H. apply swp_uwp; auto. apply circuit_swp; auto using HX1, HB1. }
  induction e as [i|e1 IH1 e2 IH2|e1 IH1 e2 IH2|e1 IH1 e2 IH2|e1 IH1 k|e1 IH1 k|e1 IH1 e2 IH2|i e1 IH1 e2 IH2];
    cbn [in_room circuit]; intros HR.
  - destruct (nth_error xs i) as [b|] eqn:Eb; [|exact I]. ustep. destruct (HX i b Eb) as (_ & _ & H3 & _). split; auto.
  - destruct HR as (R1 & R2 & _). do 2 ustep. eapply uwp_mono; [apply J; [exact R1|auto]|]. cbv beta. intros x lx [[[(X1 & X2 & X3 & X4) [XB XV]] _] [XL XS]].
    do 2 ustep. eapply uwp_mono; [apply J; [exact R2|auto]|]. cbv beta. intros y ly [[[(Y1 & Y2 & Y3 & Y4) [YB YV]] _] [YL YS]]. cbn [fst snd] in *.
    ustep. intros c Hc. split; [eapply add_leq; eauto; congruence|]. fsame.
  - destruct HR as (R1 & R2 & R3 & R4 & R5). do 2 ustep. eapply uwp_mono; [apply J; [exact R1|auto]|]. cbv beta. intros x lx [[[(X1 & X2 & X3 & X4) [XB XV]] _] [XL XS]].
    do 2 ustep. eapply uwp_mono; [apply J; [exact R2|auto]|]. cbv beta. intros y ly [[[(Y1 & Y2 & Y3 & Y4) [YB YV]] _] [YL YS]]. cbn [fst snd] in *.
    pose proof (size_pos w ins _ HI _ R1) as S1.
    ustep. eapply uwp_mono; [apply mult_uwp; auto; try congruence|].
    + rewrite X3, Y3. lia.
    + rewrite X1. unfold mult_word. rewrite X2, X4, Y2, Y4. exact R4.
    + cbv beta. intros p l [P1 P2]. split; [exact P1|]. fsame.
  - destruct HR as (R1 & R2 & R3 & R4 & R5). do 2 ustep. eapply uwp_mono; [apply J; [exact R1|auto]|]. cbv beta. intros x lx [[[(X1 & X2 & X3 & X4) [XB XV]] _] [XL XS]].
    do 2 ustep. eapply uwp_mono; [apply J; [exact R2|auto]|]. cbv beta. intros y ly [[[(Y1 & Y2 & Y3 & Y4) [YB YV]] _] [YL YS]]. cbn [fst snd] in *.
    eapply uwp_mono; [apply sub_checked_uwp; auto; try congruence|].
    + rewrite Y4. exact (word_pos w ins _ HI _ R2).
    + unfold sub_word. rewrite X1, X4, Y4. exact R4.
    + cbv beta. intros p l [P1 P2]. split; [exact P1|]. fsame.
  - destruct HR as (R1 & R2 & R3). do 2 ustep. eapply uwp_mono; [apply J; [exact R1|auto]|]. cbv beta. intros x lx [_ [XL XS]].
    ustep. intros c Hc. destruct (shift_inv _ _ _ Hc R2) as (l0 & ls & L1 & L2 & L3). split; [|fsame]. rewrite L2. rewrite L1 in XL. inversion XL; subst.
    constructor; auto. apply leq_add; auto. now apply leq_const.
  - destruct HR as (R1 & R2 & R3). do 2 ustep. eapply uwp_mono; [apply J; [exact R1|auto]|]. cbv beta. intros x lx [_ [XL XS]].
    ustep. intros c Hc. destruct (scale_inv _ _ _ Hc R2) as (L1 & L2). split; [|fsame]. rewrite L1. apply Forall_map. eapply Forall_impl; [|exact XL].
    cbv beta. intros l Hl. now apply leq_scale.
  - destruct HR as (R1 & R2). do 2 ustep. eapply uwp_mono; [apply J; [exact R1|auto]|]. cbv beta. intros x lx [_ [XL XS]].
    do 2 ustep. eapply uwp_mono; [apply J; [exact R2|auto]|]. cbv beta. intros y ly [_ [YL YS]].
    ustep. intros c Hc. destruct (concat_inv _ _ _ Hc) as (_ & C2 & _). split; [|fsame]. rewrite C2. apply Forall_app; auto.
  - destruct HR as (R1 & R2 & R3 & R4 & R5). do 2 ustep. eapply uwp_mono; [apply J; [exact R1|auto]|]. cbv beta. intros x lx [[[(X1 & X2 & X3 & X4) [XB XV]] _] [XL XS]].
    do 2 ustep. eapply uwp_mono; [apply J; [exact R2|auto]|]. cbv beta. intros y ly [[[(Y1 & Y2 & Y3 & Y4) [YB YV]] _] [YL YS]]. cbn [fst snd] in *.
    destruct (nth_error bs i) as [c|] eqn:Ec; [|exact I]. ustep.
    eapply uwp_mono; [apply mux_uwp; auto; try congruence; exact (proj2 (HB i c Ec))|].
    cbv beta. intros o l [[O1 _] O2]. split; [exact O1|]. fsame.
Qed.
End Circuit.
End UniqueC.
