(** Verdicts of runs with witnesses, stated about [run] (C82). *)
From Coq Require Import ZArith Bool List Lia ZifyBool ZifyNat.
From Verif.Model Require Import Base CS Bellpepper Util Poly Bignat.
From Verif.Spec Require Import Spec.
From Verif.Proofs Require Import Field Arith Convert Limbs Wp Lc BitNum PolyP BoolP BignatEq BignatAlloc Group Carry Regroup Mult MultC Owp Total TopBits TopBignat1 TopBignat2 TopBignat3.
Import ListNotations.
Local Open Scope Z_scope.

(** Continuing after an allocation and its check. *)
Lemma owp_bind_inv {E : Env} {A B} rho (m : prog A) (f : A -> prog B) : forall Q, owp rho (bind m f) Q ->
  owp rho m (fun r => match r with Ok a => owp rho (f a) Q | Err e => Q (Err e) | Panic => Q Panic end).
Proof. induction m; simpl; eauto. destruct w; simpl; eauto. Qed.
Lemma twp_bind_inv {E : Env} {A B} rho (m : prog A) (f : A -> prog B) Q : twp rho (bind m f) Q -> twp rho m (fun a => twp rho (f a) Q).
Proof.
  intros H. apply owp_bind_inv in H. eapply owp_mono; [exact H|]. intros [a|e|]; cbn beta iota.
  - intros H1. exists a. auto.
  - intros (? & ? & _). discriminate.
  - intros (? & ? & _). discriminate.
Qed.
Lemma twp_range {E : Env} {A B} rho (m1 : prog A) (n2 : A -> prog unit) (K : A -> prog B) (T : A -> Prop) (S : B -> Prop) :
  twp rho (let! q := m1 in let! _ := n2 q in Ret q) T -> (forall q, T q -> twp rho (K q) S) ->
  twp rho (let! q := m1 in let! _ := n2 q in K q) S.
Proof.
  intros H HK. apply twp_bind. eapply twp_mono; [apply (twp_bind_inv _ _ _ _ H)|]. cbv beta. intros q Hq.
  apply twp_bind. eapply twp_mono; [apply (twp_bind_inv _ _ _ _ Hq)|]. cbv beta. intros _ Hr.
  apply HK. destruct Hr as (a & Ha & HT). injection Ha as <-. exact HT.
Qed.

Section TopTotal.
Context {E : Env} {W : Wf E}.

Lemma pow_num_bits v k : canon v -> (NUM_BITS <= k)%nat -> v < 2 ^ Z.of_nat k.
Proof.
  intros Hv Hk. pose proof modulus_bits as [_ H]. pose proof (pow2_le _ _ Hk).
  unfold canon in Hv. lia.
Qed.

(** A number given by [k] bits, seen through the field. *)
Lemma bits_range rho l v bs k : eqp (lc_eval rho l) v -> canon v -> length bs = k ->
  eqp (lc_eval rho l) (bits_value bs) -> v < 2 ^ Z.of_nat k.
Proof.
  intros Hl Hv HL He. destruct (Nat.lt_ge_cases k NUM_BITS) as [Hk|Hk]; [|now apply pow_num_bits].
  pose proof (bits_value_bound bs) as B. rewrite HL in B.
  enough (v = bits_value bs) by lia. apply canon_eqp; [auto| |].
  - pose proof modulus_bits as [H _]. assert (Hc : (k <= CAPACITY)%nat) by (rewrite num_bits_S in Hk; lia).
    apply pow2_le in Hc. unfold canon. lia.
  - now rewrite <- He, Hl.
Qed.

Lemma top_fits_decides n k v s : good s -> num_at s n v -> (1 <= k <= NUM_BITS)%nat ->
  exists s', run true (fits_in_bits n k) s = (Ok tt, s') /\ (good s' <-> v < 2 ^ Z.of_nat k).
Proof.
  intros G Hn Hk. destruct (twp_decides (fits_in_bits n k) s (v < 2 ^ Z.of_nat k) G) as ([] & s' & H1 & H2); eauto.
  - intros rho Ha one. destruct (num_at_is_num _ _ _ _ Hn Ha one) as (H1 & H2 & _). eapply fits_twp; eauto; lia.
  - intros rho Ha one. destruct (num_at_is_num _ _ _ _ Hn Ha one) as (H1 & H2 & H3).
    eapply swp_mono; [apply fits_in_bits_swp; auto|]. intros u (bs & HL & He). rewrite width1_pos in HL by lia.
    eapply bits_range; eauto.
  - intros Hv rho Ha one. eapply hwp_mono; [apply (fits_in_bits_hwp rho one n k v); auto|auto].
    + eapply num_at_is_num; eauto.
    + lia.
    + rewrite width1_pos by lia. exact Hv.
Qed.

Lemma top_decompose_decides n k v s : good s -> num_at s n v -> (k <= NUM_BITS)%nat ->
  exists bv s', run true (num_decompose n k) s = (Ok bv, s') /\ (good s' <-> v < 2 ^ Z.of_nat k).
Proof.
  intros G Hn Hk. apply (twp_decides (num_decompose n k) s (v < 2 ^ Z.of_nat k) G).
  - intros rho Ha one. destruct (num_at_is_num _ _ _ _ Hn Ha one) as (H1 & H2 & _). eapply decompose_twp; eauto.
  - intros rho Ha one. destruct (num_at_is_num _ _ _ _ Hn Ha one) as (H1 & H2 & H3).
    eapply swp_mono; [apply num_decompose_swp; auto|]. intros u (bs & HL & _ & He & _). eapply bits_range; eauto.
  - intros Hv rho Ha one. eapply hwp_mono; [apply (num_decompose_hwp rho one n k v); auto|auto].
    eapply num_at_is_num; eauto.
Qed.

Lemma top_well_formed_decides b vs s : good s -> bignat_at s b vs ->
  (1 <= limb_width (bparams b) <= NUM_BITS)%nat ->
  exists s', run true (assert_well_formed b) s = (Ok tt, s') /\
    (good s' <-> Forall (fun v => v < 2 ^ Z.of_nat (limb_width (bparams b))) vs).
Proof.
  intros G Hb Hw. set (w := limb_width (bparams b)) in *.
  destruct (twp_decides (assert_well_formed b) s (Forall (fun v => v < 2 ^ Z.of_nat w) vs) G) as ([] & s' & H1 & H2); eauto.
  - intros rho Ha one. destruct (bignat_at_is _ _ _ _ Hb Ha one) as [(B1 & B2 & B3 & B4 & B5) _].
    unfold assert_well_formed. rewrite limb_nums_seq, iterM_map. cbn [fst snd]. apply twp_iterM; auto.
    intros i Hi. apply in_seq in Hi. apply twp_bind. eapply twp_lift.
    { apply limb_num_ok; auto. lia. }
    apply twp_ns. destruct (B5 eq_refl) as [HL _].
    eapply fits_twp; [cbn [n_val]; rewrite HL; reflexivity| |fold w; lia|exact I].
    rewrite (ev_length _ _ _ B1) in Hi. apply (nth_range canon); auto using canon_0.
  - intros rho Ha one. destruct (bignat_at_is _ _ _ _ Hb Ha one) as [(B1 & _ & _ & B4 & _) _].
    eapply swp_mono; [apply assert_well_formed_swp; auto|]. intros u H. fold w in H. rewrite width1_pos in H by lia.
    replace (wires rho (limbs b)) with vs in H.
    + eapply Forall_impl; [|exact H]. cbv beta. lia.
    + symmetry. unfold wires. clear -B1 B4 W. induction B1; cbn [map]; auto. inversion B4; subst. f_equal; auto.
      unfold feval. apply canon_eqp; auto using fmk_canon. now rewrite eqp_fmk.
  - intros Hv rho Ha one. eapply hwp_awp. apply (assert_well_formed_awp rho one Honest b vs).
    + apply (bignat_at_is _ _ _ _ Hb Ha one).
    + fold w. rewrite width1_pos by lia. exact Hv.
    + intros _. fold w. lia.
Qed.

Lemma carry_room_bits M w : carry_room M w -> (carry_bits_f64 M w <= NUM_BITS)%nat.
Proof. intros [_ H]. unfold carry_width in H. rewrite num_bits_S. lia. Qed.

Lemma at_canon s b vs : bignat_at s b vs -> Forall canon vs.
Proof. intros (_ & _ & _ & _ & H). eapply Forall_impl; [|exact H]. cbv beta. tauto. Qed.

Lemma at_word_nonneg s b vs : bignat_at s b vs -> vs <> [] -> 0 <= max_word (bparams b).
Proof. intros (_ & _ & _ & _ & H) Hv. destruct H as [|? ? [H _] _]; [congruence|lia]. Qed.

Lemma top_ewc_total a b xs ys s :
  let w := limb_width (bparams a) in
  let M := Z.max (max_word (bparams a)) (max_word (bparams b)) in
  good s -> bignat_at s a xs -> bignat_at s b ys -> limb_width (bparams b) = w -> (1 <= w)%nat ->
  0 <= M -> (carry_bits_f64 M w <= NUM_BITS)%nat -> exists s', run true (equal_when_carried a b) s = (Ok tt, s').
Proof.
  intros w M G Ha Hb HW Hw HM Hcb.
  destruct (twp_run (equal_when_carried a b) s G) as ([] & s' & H); eauto.
  intros rho Hag one. destruct (bignat_at_is _ _ _ _ Ha Hag one) as [(A1 & A2 & A3 & A4 & A5) Wa].
  destruct (bignat_at_is _ _ _ _ Hb Hag one) as [(B1 & B2 & B3 & B4 & B5) Wb].
  eapply (when_carried_twp rho a b xs ys); auto; try (apply A5; reflexivity); try (apply B5; reflexivity); try (eapply ev_length; eassumption).
  eapply Forall_impl; [|exact Wb]. cbv beta. lia.
Qed.

Lemma top_ewc_decides a b xs ys s :
  let w := limb_width (bparams a) in
  let M := Z.max (max_word (bparams a)) (max_word (bparams b)) in
  good s -> bignat_at s a xs -> bignat_at s b ys -> limb_width (bparams b) = w -> (1 <= w)%nat ->
  0 <= M -> no_wrap M w -> carry_room M w ->
  exists s', run true (equal_when_carried a b) s = (Ok tt, s') /\
    (good s' <-> value_of (2 ^ Z.of_nat w) xs = value_of (2 ^ Z.of_nat w) ys /\
       forall i, (Nat.min (length xs) (length ys) <= i)%nat -> nth i xs 0 = 0 /\ nth i ys 0 = 0).
Proof.
  intros w M G Ha Hb HW Hw HM HN HR. pose proof (carry_room_bits _ _ HR) as Hcb.
  destruct (top_ewc_total a b xs ys s G Ha Hb HW Hw HM Hcb) as (s' & Hr). exists s'. split; auto. split.
  - intros G'. apply no_wrap_width1 in HN. destruct HN as [N1 N2].
    refine (honest_good _ s tt s' (fun _ => _) G Hr G' _). intros rho Hag one.
    destruct (bignat_at_is _ _ _ _ Ha Hag one) as [(A1 & _) Wa].
    destruct (bignat_at_is _ _ _ _ Hb Hag one) as [(B1 & _) Wb].
    eapply swp_mono; [apply (equal_when_carried_swp rho one Honest a b xs ys); auto|]. cbv beta. tauto.
  - intros [HV HZ]. destruct (top_ewc_complete a b xs ys s G Ha Hb HW Hw HV HZ HR) as (s2 & Hr2 & G2). rewrite Hr in Hr2. injection Hr2 as <-. exact G2.
Qed.

Lemma group_room_bits M w : group_room M w ->
  (carry_bits_f64 (group_word M w) (w * group_size M w) <= NUM_BITS)%nat.
Proof. intros (_ & _ & H & _). now apply carry_room_bits. Qed.

Lemma top_regroup_decides a b xs ys s :
  let w := limb_width (bparams a) in
  let M := Z.max (max_word (bparams a)) (max_word (bparams b)) in
  let g := group_size M w in
  let n := Nat.min (n_groups (length xs) g) (n_groups (length ys) g) in
  good s -> bignat_at s a xs -> bignat_at s b ys -> limb_width (bparams b) = w -> (1 <= w)%nat ->
  xs <> [] -> ys <> [] -> group_no_wrap M w -> group_room M w ->
  exists s', run true (equal_when_carried_regroup a b) s = (Ok tt, s') /\
    (good s' <-> value_of (2 ^ Z.of_nat w) xs = value_of (2 ^ Z.of_nat w) ys /\
       forall i, (n * g <= i)%nat -> nth i xs 0 = 0 /\ nth i ys 0 = 0).
Proof.
  intros w M g n G Ha Hb HW Hw Hx Hy HN HR.
  destruct (twp_run (equal_when_carried_regroup a b) s G) as ([] & s' & Hr).
  { intros rho Hag one. destruct (bignat_at_is _ _ _ _ Ha Hag one) as [(A1 & A2 & A3 & A4 & A5) Wa].
    destruct (bignat_at_is _ _ _ _ Hb Hag one) as [(B1 & B2 & B3 & B4 & B5) Wb].
    eapply (regroup_twp rho a b xs ys); fold w M g; auto; try (apply A5; reflexivity); try (apply B5; reflexivity).
    - destruct xs; [congruence|cbn; lia].
    - destruct ys; [congruence|cbn; lia].
    - apply HR.
    - apply HR.
    - now apply group_room_bits. }
  exists s'. split; auto. split.
  - intros G'. refine (honest_good _ s tt s' (fun _ => _) G Hr G' _). intros rho Hag one.
    destruct (bignat_at_is _ _ _ _ Ha Hag one) as [(A1 & _) Wa].
    destruct (bignat_at_is _ _ _ _ Hb Hag one) as [(B1 & _) Wb].
    eapply swp_mono; [apply (regroup_swp rho one Honest a b xs ys); auto|]. cbv beta zeta. tauto.
  - intros [HV HZ]. destruct (top_regroup_complete a b xs ys s G Ha Hb HW Hw Hx Hy HV HZ HR) as (s2 & Hr2 & G2). rewrite Hr in Hr2. injection Hr2 as <-. exact G2.
Qed.

Section Products.
Context (rho : assignment) (one : rho ONE = 1).

(** The comparison of two products, whatever they are. *)
Lemma two_sides_twp lhs rhs w a q m r L Qm R :
  vals_ok rho Honest lhs L -> vals_ok rho Honest rhs Qm -> is_bn rho Honest r R ->
  Forall (fun d => 0 <= d <= right_max_word q m r) (rsum Qm R) ->
  (1 <= w)%nat -> (1 <= length L)%nat -> (1 <= length Qm)%nat -> right_max_word q m r < modulus ->
  let M := Z.max a (right_max_word q m r) in
  group_room M w -> forall Q : unit -> Prop, Q tt ->
  twp rho (equal_when_carried_regroup (from_poly lhs w a)
     (from_poly (poly_sum rhs (to_poly r)) w (right_max_word q m r))) Q.
Proof.
  intros HL HP Hr BR Hw L1 Q1 HM M HG Q HQ.
  assert (HS : vals_ok rho Honest (poly_sum rhs (to_poly r)) (rsum Qm R)).
  { eapply sum_vals; eauto using is_bn_vals. }
  eapply (regroup_twp rho _ _ L (rsum Qm R)); rewrite ?from_poly_bparams; cbn [limb_width max_word]; auto.
  - eapply from_poly_lv; eauto.
  - eapply from_poly_lv; eauto.
  - unfold from_poly. cbn [limb_values]. now apply HL.
  - unfold from_poly. cbn [limb_values]. now apply HS.
  - rewrite rsum_length. lia.
  - apply HG.
  - apply HG.
  - now apply group_room_bits.
Qed.

Lemma verify_mult_twp a b prod A B P :
  let w := limb_width (bparams a) in
  let M := Z.max (mult_word a b) (max_word (bparams prod)) in
  limb_width (bparams b) = w -> limb_width (bparams prod) = w ->
  is_bn rho Honest a A -> is_bn rho Honest b B -> is_bn rho Honest prod P ->
  in_word a A -> in_word b B -> in_word prod P ->
  (1 <= w)%nat -> (1 <= length A)%nat -> (1 <= length B)%nat -> (1 <= length P)%nat ->
  group_room M w -> forall Q : unit -> Prop, Q tt -> twp rho (verify_mult a b prod) Q.
Proof.
  intros w M W1 W2 Ha Hb Hp WA WB WP Hw LA LB LP HG Q HQ. unfold verify_mult, width_agreement.
  rewrite W1, W2. fold w. rewrite Nat.eqb_refl. cbn [lift bind].
  change (Z.of_nat _ * _ * _) with (mult_word a b).
  assert (HB : Forall (fun d => 0 <= d <= mult_word a b) (convs A B)).
  { unfold mult_word, product_word.
    destruct Ha as (_ & _ & -> & _). destruct Hb as (_ & _ & -> & _). apply conv_list_bound; auto. }
  assert (HM : M < modulus).
  { apply (group_room_word M w); auto. unfold in_word in WP. destruct P; [simpl in LP; lia|]. inversion WP; lia. }
  apply twp_bind, twp_ns, twp_hwp. eapply hwp_mono; [eapply hwp_awp; apply (product_awp rho Honest _ _ A B (mult_word a b)); auto using is_bn_vals; lia|].
  intros pp Hpp. cbv beta in Hpp. apply twp_ns.
  eapply (regroup_twp rho (from_poly pp w (mult_word a b)) prod (convs A B) P); rewrite ?from_poly_bparams; cbn [limb_width max_word]; auto.
  - eapply from_poly_lv; eauto.
  - apply Hp.
  - unfold from_poly. cbn [limb_values]. now apply Hpp.
  - now apply Hp.
  - rewrite convs_length. lia.
  - apply HG.
  - apply HG.
  - now apply group_room_bits.
Qed.

Lemma apm_twp a b m r A B Mm R :
  let w := limb_width (bparams a) in
  let X := 2 ^ Z.of_nat w in
  let ql := (length A + length B)%nat in
  let M := mod_word a b m ql (max_word (bparams r)) w in
  let P := value_of X A * value_of X B in
  limb_width (bparams b) = w -> limb_width (bparams m) = w -> limb_width (bparams r) = w ->
  is_bn rho Honest a A -> is_bn rho Honest b B -> is_bn rho Honest m Mm -> is_bn rho Honest r R ->
  in_word a A -> in_word b B -> in_word m Mm -> in_word r R -> 0 <= max_word (bparams r) ->
  (1 <= w)%nat -> (w < NUM_BITS)%nat -> (1 <= length A)%nat -> (1 <= length B)%nat -> (1 <= length Mm)%nat ->
  0 <= P -> 0 < value_of X Mm -> P / value_of X Mm < 2 ^ Z.of_nat (w * ql) -> group_room M w ->
  twp rho (assert_product_mod a b m r) (fun q => is_bn rho Honest q (map (digit w (P / value_of X Mm)) (seq 0 ql)) /\ limb_width (bparams q) = w).
Proof.
  intros w X ql M P W1 W2 W3 Ha Hb Hm Hr WA WB WM WR Prm Hw Hw' LA LB LM HP0 HM0 Hq HG.
  unfold assert_product_mod, width_agreement. rewrite W1, W2, W3. fold w. rewrite Nat.eqb_refl. cbn [lift bind].
  assert (La : length (limbs a) = length A) by apply (ev_length _ _ _ (proj1 Ha)).
  assert (Lb : length (limbs b) = length B) by apply (ev_length _ _ _ (proj1 Hb)).
  assert (Lm : length (limbs m) = length Mm) by apply (ev_length _ _ _ (proj1 Hm)).
  rewrite La, Lb. fold ql. pose proof (Z.div_pos P (value_of X Mm) HP0 HM0) as Hdiv.
  destruct (digits_facts w ql (P / value_of X Mm) ltac:(lia)) as (LQ & RQ & VQ).
  set (Q := map (digit w (P / value_of X Mm)) (seq 0 ql)) in *.
  assert (LQ1 : (1 <= length Q)%nat) by (rewrite LQ; unfold ql; lia).
  assert (Hval : (let? x := grab (value a) in let? y := grab (value b) in let? z := grab (value m) in bigint_div (x * y) z) =
     Ok (value_of (2 ^ Z.of_nat w) Q)).
  { rewrite (is_bn_value _ _ _ _ Ha eq_refl), (is_bn_value _ _ _ _ Hb eq_refl), (is_bn_value _ _ _ _ Hm eq_refl), W1, W2.
    fold w. fold X. cbn [grab rbind]. fold P. fold X in VQ. rewrite VQ.
    apply (quot_rem_unique P (value_of X Mm) _ (P mod value_of X Mm)); auto.
    - apply Z.mod_pos_bound; auto.
    - rewrite (Z.div_mod P (value_of X Mm)) at 1 by lia. ring. }
  rewrite Hval.
  eapply (twp_range rho _ _ _ (fun q => is_bn rho Honest q Q /\ in_word q Q /\ bparams q = params_new w ql)).
  { apply twp_hwp. eapply hwp_awp. eapply (alloc_range_awp' rho one Honest _ _ _ w ql Q); eauto; [lia|].
    intros q H1 H2 H3. instantiate (1 := []). cbn [awp]. auto. }
  { intros q (Iq & Wq & Pq).
    assert (Lq : length (limbs q) = length Q) by apply (ev_length _ _ _ (proj1 Iq)).
    assert (Pqm : max_word (bparams q) = 2 ^ Z.of_nat w - 1) by (rewrite Pq; apply params_word).
    assert (HMM : M = Z.max (left_max_word a b) (right_max_word q m r)).
    { unfold M, mod_word, product_word, left_max_word, right_max_word. rewrite Lq, LQ, Pqm. reflexivity. }
    pose proof (in_word_max _ _ WA LA). pose proof (in_word_max _ _ WB LB). pose proof (in_word_max _ _ WM LM).
    pose proof (in_word_max _ _ Wq LQ1).
    assert (BL : Forall (fun d => 0 <= d <= left_max_word a b) (convs A B)).
    { unfold left_max_word. rewrite La, Lb. apply conv_list_bound; auto. }
    assert (BQ : Forall (fun d => 0 <= d <= right_max_word q m r - max_word (bparams r)) (convs Q Mm)).
    { unfold right_max_word. rewrite Lq, Lm. eapply Forall_impl; [|apply conv_list_bound; [exact Wq|exact WM]].
      cbv beta. lia. }
    assert (R0 : 0 <= left_max_word a b) by (unfold left_max_word; apply Z.mul_nonneg_nonneg; [apply Z.mul_nonneg_nonneg|]; lia).
    assert (R1 : 0 <= right_max_word q m r - max_word (bparams r)).
    { unfold right_max_word. apply Zle_minus_le_0. rewrite <- (Z.add_0_l (max_word (bparams r))) at 1. apply Z.add_le_mono_r.
      apply Z.mul_nonneg_nonneg; [apply Z.mul_nonneg_nonneg|]; lia. }
    assert (HM : M < modulus) by (apply (group_room_word M w); auto; lia).
    apply twp_bind, twp_ns, twp_hwp. eapply hwp_mono; [eapply hwp_awp; apply (product_awp rho Honest _ _ A B (left_max_word a b)); auto using is_bn_vals; lia|].
    intros lhs Hl. cbv beta in Hl.
    apply twp_bind, twp_ns, twp_hwp. eapply hwp_mono; [eapply hwp_awp; apply (product_awp rho Honest _ _ Q Mm (right_max_word q m r - max_word (bparams r))); auto using is_bn_vals; lia|].
    intros rp Hrp. cbv beta in Hrp. apply twp_bind, twp_ns.
    eapply (two_sides_twp lhs rp w (left_max_word a b) q m r (convs A B) (convs Q Mm) R); auto.
    - replace (right_max_word q m r) with (right_max_word q m r - max_word (bparams r) + max_word (bparams r)) by lia.
      apply rsum_bound; auto.
    - rewrite convs_length. lia.
    - rewrite convs_length. lia.
    - lia.
    - rewrite <- HMM. exact HG.
    - apply twp_ret. split; auto. rewrite Pq. reflexivity. }
Qed.

End Products.

(** A honest run that returns, with what is known of its result for the stored values. *)
Lemma twp_result {A} (m : prog A) s (T S : assignment -> A -> Prop) : good s ->
  (forall rho, agree s rho -> rho ONE = 1 -> twp rho m (T rho)) ->
  (forall rho, agree s rho -> rho ONE = 1 -> swp Honest rho m (S rho)) ->
  exists a s', run true m s = (Ok a, s') /\ (forall rho, agree s' rho -> T rho a) /\
    (good s' -> forall rho, agree s' rho -> S rho a).
Proof.
  intros G HT HS. destruct (run true m s) as [r s'] eqn:Hr.
  assert (HO : forall rho, agree s' rho -> agree s rho /\ exists a, r = Ok a /\ T rho a).
  { apply (owp_run m s (fun rho r => exists a, r = Ok a /\ T rho a)); auto.
    intros rho Ha. apply HT; auto. apply (G rho Ha). }
  destruct (HO _ (agree_asg s')) as (_ & a & -> & _). exists a, s'. split; auto. split.
  - intros rho Ha. destruct (HO _ Ha) as (_ & a' & H & HTa). injection H as <-. exact HTa.
  - intros G' rho Ha. pose proof (G' rho Ha) as Hs. destruct (HO _ Ha) as [Hag _].
    exact (swp_run_honest _ _ _ _ _ (S rho) Hr Ha Hs (HS _ Hag (proj1 Hs))).
Qed.

Lemma top_verify_mult_decides a b p A B P s :
  let w := limb_width (bparams a) in
  let M := Z.max (product_word (length A) (max_word (bparams a)) (length B) (max_word (bparams b))) (max_word (bparams p)) in
  let g := group_size M w in
  good s -> bignat_at s a A -> bignat_at s b B -> bignat_at s p P ->
  limb_width (bparams b) = w -> limb_width (bparams p) = w -> (1 <= w)%nat -> A <> [] -> B <> [] -> P <> [] ->
  Z.of_nat (length A + length B) <= modulus -> group_no_wrap M w -> group_room M w ->
  fits_groups w g (length A + length B - 1) (length P) (value_of (2 ^ Z.of_nat w) A * value_of (2 ^ Z.of_nat w) B) ->
  exists s', run true (verify_mult a b p) s = (Ok tt, s') /\
    (good s' <-> value_of (2 ^ Z.of_nat w) P = value_of (2 ^ Z.of_nat w) A * value_of (2 ^ Z.of_nat w) B).
Proof.
  intros w M g G Ha Hb Hp W1 W2 Hw HA HB HP HL HN HR HF. apply nonempty_length in HA, HB, HP.
  assert (HMM : forall rho, agree s rho -> rho ONE = 1 -> M = Z.max (mult_word a b) (max_word (bparams p))).
  { intros rho Hag one. unfold mult_word. destruct (bignat_at_is _ _ _ _ Ha Hag one) as [(_ & _ & -> & _) _].
    destruct (bignat_at_is _ _ _ _ Hb Hag one) as [(_ & _ & -> & _) _]. reflexivity. }
  destruct (twp_decides (verify_mult a b p) s
    (value_of (2 ^ Z.of_nat w) P = value_of (2 ^ Z.of_nat w) A * value_of (2 ^ Z.of_nat w) B) G) as ([] & s' & H1 & H2); eauto.
  - intros rho Hag one. specialize (HMM rho Hag one). destruct (bignat_at_is _ _ _ _ Ha Hag one) as [Ia Wa].
    destruct (bignat_at_is _ _ _ _ Hb Hag one) as [Ib Wb]. destruct (bignat_at_is _ _ _ _ Hp Hag one) as [Ip Wp].
    eapply (verify_mult_twp rho a b p A B P); auto. fold w. rewrite <- HMM. exact HR.
  - intros rho Hag one. specialize (HMM rho Hag one). destruct (bignat_at_is _ _ _ _ Ha Hag one) as [Ia Wa].
    destruct (bignat_at_is _ _ _ _ Hb Hag one) as [Ib Wb]. destruct (bignat_at_is _ _ _ _ Hp Hag one) as [Ip Wp].
    eapply swp_mono; [apply (verify_mult_swp rho one Honest a b p A B P); auto|]; try apply Ia; try apply Ib; try apply Ip.
    + lia.
    + fold w. rewrite <- HMM. exact HN.
    + cbv beta zeta. fold w. intros _ (_ & _ & _ & H & _). congruence.
  - intros HV rho Hag one. specialize (HMM rho Hag one). destruct (bignat_at_is _ _ _ _ Ha Hag one) as [Ia Wa].
    destruct (bignat_at_is _ _ _ _ Hb Hag one) as [Ib Wb]. destruct (bignat_at_is _ _ _ _ Hp Hag one) as [Ip Wp].
    eapply hwp_awp. apply (verify_mult_awp rho one Honest a b p A B P); auto; fold w; rewrite <- ?HMM; auto.
    fold g. pose proof (sides_zero_fits M w (convs A B) P (value_of (2 ^ Z.of_nat w) P)) as HZ.
    unfold sides_zero in HZ. rewrite convs_length in HZ. apply HZ; auto.
    + apply HR.
    + lia.
    + apply convs_nonneg; eapply canons_nonneg, at_canon; eauto.
    + eapply canons_nonneg, at_canon; eauto.
    + rewrite convs_value. congruence.
    + rewrite HV. exact HF.
Qed.

Lemma top_apm_decides a b m r A B Mm R s :
  let w := limb_width (bparams a) in
  let X := 2 ^ Z.of_nat w in
  let ql := (length A + length B)%nat in
  let M := Z.max (product_word (length A) (max_word (bparams a)) (length B) (max_word (bparams b)))
     (product_word ql (X - 1) (length Mm) (max_word (bparams m)) + max_word (bparams r)) in
  let g := group_size M w in
  let P := value_of X A * value_of X B in
  good s -> bignat_at s a A -> bignat_at s b B -> bignat_at s m Mm -> bignat_at s r R ->
  limb_width (bparams b) = w -> limb_width (bparams m) = w -> limb_width (bparams r) = w ->
  A <> [] -> B <> [] -> Mm <> [] -> R <> [] -> (1 <= w)%nat -> (w < NUM_BITS)%nat ->
  0 < value_of X Mm -> P / value_of X Mm < 2 ^ Z.of_nat (w * ql) ->
  Z.of_nat (length A + length B + length Mm) <= modulus -> group_no_wrap M w -> group_room M w ->
  fits_groups w g (length A + length B - 1) (Nat.max (ql + length Mm - 1) (length R)) P ->
  exists q s', run true (assert_product_mod a b m r) s = (Ok q, s') /\ value q = Some (P / value_of X Mm) /\
    (good s' <-> value_of X R = P mod value_of X Mm).
Proof.
  intros w X ql M g P G Ha Hb Hm Hr W1 W2 W3 HA HB HM HR Hw HwN HM0 Hq HL HN HG HF.
  pose proof HA as HA'. pose proof HB as HB'. pose proof HM as HM'. pose proof HR as HR'.
  apply nonempty_length in HA, HB, HM, HR. pose proof (pow2_pos w) as HX.
  assert (P0 : 0 <= P) by (apply Z.mul_nonneg_nonneg; eapply bignat_at_nonneg; eauto; unfold X; lia).
  pose proof (Z.div_pos P (value_of X Mm) P0 HM0) as Hdiv.
  destruct (digits_facts w ql (P / value_of X Mm) ltac:(lia)) as (LQ & RQ & VQ).
  set (Q := map (digit w (P / value_of X Mm)) (seq 0 ql)) in *. fold X in VQ.
  assert (HMM : forall rho, agree s rho -> rho ONE = 1 -> M = mod_word a b m ql (max_word (bparams r)) w).
  { intros rho Hag one. unfold mod_word. destruct (bignat_at_is _ _ _ _ Ha Hag one) as [Ia _].
    destruct (bignat_at_is _ _ _ _ Hb Hag one) as [Ib _]. destruct (bignat_at_is _ _ _ _ Hm Hag one) as [Im _].
    rewrite (ev_length _ _ _ (proj1 Ia)), (ev_length _ _ _ (proj1 Ib)), (ev_length _ _ _ (proj1 Im)). reflexivity. }
  destruct (twp_result (assert_product_mod a b m r) s
    (fun rho q => is_bn rho Honest q Q /\ limb_width (bparams q) = w)
    (fun rho q => P = int_of rho q * value_of X Mm + value_of X R) G) as (q & s' & H1 & H2 & H3).
  - intros rho Hag one. specialize (HMM rho Hag one). destruct (bignat_at_is _ _ _ _ Ha Hag one) as [Ia Wa].
    destruct (bignat_at_is _ _ _ _ Hb Hag one) as [Ib Wb]. destruct (bignat_at_is _ _ _ _ Hm Hag one) as [Im Wm].
    destruct (bignat_at_is _ _ _ _ Hr Hag one) as [Ir Wr].
    apply (apm_twp rho one a b m r A B Mm R); auto.
    + eapply in_word_max; eauto.
    + fold w. fold ql. rewrite <- HMM. exact HG.
  - intros rho Hag one. specialize (HMM rho Hag one). destruct (bignat_at_is _ _ _ _ Ha Hag one) as [Ia Wa].
    destruct (bignat_at_is _ _ _ _ Hb Hag one) as [Ib Wb]. destruct (bignat_at_is _ _ _ _ Hm Hag one) as [Im Wm].
    destruct (bignat_at_is _ _ _ _ Hr Hag one) as [Ir Wr].
    eapply swp_mono; [apply (assert_product_mod_swp rho one Honest a b m r A B Mm R); auto|]; try apply Ia; try apply Ib; try apply Im; try apply Ir.
    + eapply in_word_max; eauto.
    + lia.
    + fold w. fold ql. rewrite <- HMM. exact HN.
    + cbv beta zeta. fold w. fold X. tauto.
  - exists q, s'. split; auto. pose proof (H2 _ (agree_asg s')) as [I1 I2].
    assert (VV : value q = Some (P / value_of X Mm)).
    { rewrite (is_bn_value _ _ _ _ I1 eq_refl), I2. fold X. now rewrite VQ. }
    split; auto. split.
    + intros G'. specialize (H3 G' _ (agree_asg s')). cbv beta in H3. unfold int_of in H3. rewrite I2 in H3. fold X in H3.
      assert (HE : wires (asg s') (limbs q) = Q).
      { unfold wires. destruct I1 as (B1 & _ & _ & B4 & _). clear -B1 B4 W. revert B4. induction B1; cbn [map]; intros B4; auto. inversion B4; subst. f_equal; auto.
        unfold feval. apply canon_eqp; auto using fmk_canon. now rewrite eqp_fmk. }
      rewrite HE, VQ in H3. pose proof (Z.div_mod P (value_of X Mm)). lia.
    + intros HV. destruct (top_apm_complete a b m r A B Mm R s G Ha Hb Hm Hr W1 W2 W3 HA' HB' HM' HR' Hw HwN HV HM0 Hq HG HF)
        as (q2 & s2 & Q2 & E1 & E2 & _). rewrite H1 in E1. injection E1 as <- <-. exact E2.
Qed.

End TopTotal.
