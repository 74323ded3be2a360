(** Exact conditions for the products and divisions of big naturals (C85). *)
From Coq Require Import ZArith Bool List Lia ZifyBool ZifyNat.
From Verif.Model Require Import Base CS Bellpepper Util Poly Bignat.
From Verif.Spec Require Import Spec SpecExact.
From Verif.Proofs Require Import Field Arith Convert Limbs Wp Lc BitNum PolyP BoolP BignatEq BignatAlloc Group Carry Regroup Mult MultC PureOps MinBits Owp TopBits TopBignat1 TopBignat2 TopBignat3 Total TopTotal DecP.
Import ListNotations.
Local Open Scope Z_scope.

Section Exact.
Context {E : Env} {W : Wf E}.

Lemma dec_run {A} (m : prog A) s (P : Prop) (Q : assignment -> A -> Prop) : good s ->
  (forall rho, agree s rho -> rho ONE = 1 -> dec rho m P (Q rho)) ->
  exists a s', run true m s = (Ok a, s') /\ (forall rho, agree s' rho -> Q rho a) /\ (good s' <-> P).
Proof.
  intros G H. destruct (twp_result m s Q (fun _ _ => P) G) as (a & s' & H1 & H2 & H3).
  - intros rho Ha one. apply (H rho Ha one).
  - intros rho Ha one. eapply swp_mono; [apply (H rho Ha one)|]. cbv beta. tauto.
  - exists a, s'. split; auto. split; auto. split; [intros G'; apply (H3 G' _ (agree_asg s'))|].
    intros HP. destruct (hwp_run m s Q G) as (a2 & s2 & R1 & R2 & _).
    { intros rho Ha one. now apply (H rho Ha one). }
    rewrite H1 in R1. injection R1 as <- <-. exact R2.
Qed.

(** ** Excess limbs *)
Lemma conv_high A B i : (length A + length B - 1 <= i)%nat -> (1 <= length A)%nat -> (1 <= length B)%nat -> conv A B i = 0.
Proof.
  intros Hi LA LB. unfold conv. transitivity (sum_n (S i) (fun _ => 0)); [|apply sum_n_zero].
  apply sum_n_ext. intros j Hj. destruct (Nat.lt_ge_cases j (length A)).
  - rewrite (nth_overflow B) by lia. ring.
  - rewrite (nth_overflow A) by lia. ring.
Qed.
Lemma convs_nth A B i : (1 <= length A)%nat -> (1 <= length B)%nat -> nth i (convs A B) 0 = conv A B i.
Proof.
  intros LA LB. unfold convs. destruct (Nat.lt_ge_cases i (length A + length B - 1)).
  - now rewrite nth_map_seq.
  - rewrite nth_overflow by (rewrite map_length, seq_length; lia). symmetry. now apply conv_high.
Qed.
Lemma sides_zero_no_excess M w A B Q Mm R : (1 <= length A)%nat -> (1 <= length B)%nat -> (1 <= length Q)%nat -> (1 <= length Mm)%nat ->
  Forall (fun d => 0 <= d) Q -> Forall (fun d => 0 <= d) Mm -> Forall (fun d => 0 <= d) R ->
  sides_zero M w (convs A B) (rsum (convs Q Mm) R) <-> no_excess (group_size M w) A B Q Mm R.
Proof.
  intros LA LB LQ LM NQ NM NR. unfold sides_zero, no_excess, common_limbs. rewrite rsum_length, !convs_length.
  split; intros H i Hi; specialize (H i Hi); rewrite rsum_nth, !convs_nth in * by auto.
  - pose proof (conv_nonneg Q Mm i NQ NM). assert (0 <= nth i R 0).
    { destruct (nth_in_or_default i R 0) as [Hin| ->]; [|lia]. rewrite Forall_forall in NR. auto. }
    lia.
  - lia.
Qed.

Section Rho.
Context (rho : assignment) (one : rho ONE = 1).

Lemma regroup_exact_dec a b xs ys :
  let w := limb_width (bparams a) in
  let M := Z.max (max_word (bparams a)) (max_word (bparams b)) in
  ev rho (limbs a) xs -> ev rho (limbs b) ys -> lv_ok a -> lv_ok b ->
  limb_values a = Some xs -> limb_values b = Some ys -> in_word a xs -> in_word b ys ->
  limb_width (bparams b) = w -> (1 <= w)%nat -> (1 <= length xs)%nat -> (1 <= length ys)%nat ->
  group_no_wrap M w -> group_room M w ->
  dec rho (equal_when_carried_regroup a b)
    (value_of (2 ^ Z.of_nat w) xs = value_of (2 ^ Z.of_nat w) ys /\ sides_zero M w xs ys) (fun _ => True).
Proof.
  intros w M A1 B1 A2 B2 A5 B5 Wa Wb HW Hw LX LY HN HR. split; [|split].
  - eapply (regroup_twp rho a b xs ys); fold w M; auto.
    + apply HR.
    + apply HR.
    + now apply group_room_bits.
  - eapply swp_mono; [apply (regroup_swp rho one Honest a b xs ys); auto|]. cbv beta zeta. unfold sides_zero. tauto.
  - intros [HV HZ]. eapply hwp_awp. apply (regroup_awp rho one Honest a b xs ys); auto.
Qed.

(** An allocated and range-checked number. *)
Lemma range_dec (nm1 nm2 : name) f w n P {A} (k : bignat -> prog A) Pr (Q : A -> Prop) :
  length P = n -> (1 <= n)%nat -> (1 <= w)%nat -> (w < NUM_BITS)%nat ->
  Forall (fun v => 0 <= v < 2 ^ Z.of_nat w) P -> f = Ok (value_of (2 ^ Z.of_nat w) P) ->
  (forall b, is_bn rho Honest b P -> bparams b = params_new w n -> in_word b P -> dec rho (k b) Pr Q) ->
  dec rho (let! b := ns nm1 (alloc_from_nat f w n) in let! _ := ns nm2 (assert_well_formed b) in k b) Pr Q.
Proof.
  intros HL Hn Hw1 Hw HR Hf HK.
  eapply (dec_step _ _ _ _ (fun b => is_bn rho Honest b P /\ bparams b = params_new w n)).
  { apply hwp_ns. eapply hwp_awp.
    apply (alloc_from_nat_awp rho Honest f w n P); auto.
    - eapply range_canon; eauto.
    - intros _. split; [auto|]. split; auto. eexists; split; [exact Hf|].
      split; [subst n; now apply range_value|]. subst n. now apply digits_unique. }
  intros b [Hb Hp]. assert (Hlw : limb_width (bparams b) = w) by (rewrite Hp; reflexivity).
  eapply (dec_step _ _ _ _ (fun _ => True)).
  { apply hwp_ns. eapply hwp_awp, awp_mono; [apply (assert_well_formed_awp rho one Honest b P Hb)|auto].
    - rewrite Hlw, width1_pos by auto. eapply Forall_impl; [|exact HR]. cbv beta. lia.
    - intros _. rewrite Hlw. lia. }
  intros _ _. apply HK; auto. eapply range_in_word; eauto.
Qed.

Lemma product_dec a b A B M (nm : name) {T} (k : polynomial -> prog T) Pr (Q : T -> Prop) :
  vals_ok rho Honest a A -> vals_ok rho Honest b B -> (1 <= length A)%nat -> (1 <= length B)%nat ->
  Forall (fun d => 0 <= d <= M) (convs A B) -> M < modulus ->
  (forall p, vals_ok rho Honest p (convs A B) -> dec rho (k p) Pr Q) ->
  dec rho (let! p := ns nm (alloc_product a b) in k p) Pr Q.
Proof.
  intros Ha Hb LA LB HB HM HK. eapply dec_step; [|exact HK]. apply hwp_ns. eapply hwp_awp.
  apply (product_awp rho Honest a b A B M); auto.
Qed.

Lemma verify_mult_dec a b prod A B P :
  let w := limb_width (bparams a) in
  let M := Z.max (mult_word a b) (max_word (bparams prod)) in
  limb_width (bparams b) = w -> limb_width (bparams prod) = w ->
  is_bn rho Honest a A -> is_bn rho Honest b B -> is_bn rho Honest prod P ->
  in_word a A -> in_word b B -> in_word prod P ->
  (1 <= w)%nat -> (1 <= length A)%nat -> (1 <= length B)%nat -> (1 <= length P)%nat ->
  group_no_wrap M w -> group_room M w ->
  dec rho (verify_mult a b prod)
    (value_of (2 ^ Z.of_nat w) A * value_of (2 ^ Z.of_nat w) B = value_of (2 ^ Z.of_nat w) P /\ sides_zero M w (convs A B) P) (fun _ => True).
Proof.
  intros w M W1 W2 Ha Hb Hp WA WB WP Hw LA LB LP HN HG. unfold verify_mult, width_agreement.
  rewrite W1, W2. fold w. rewrite Nat.eqb_refl. cbn [lift bind].
  change (Z.of_nat _ * _ * _) with (mult_word a b).
  assert (HB : Forall (fun d => 0 <= d <= mult_word a b) (convs A B)).
  { unfold mult_word, product_word.
    destruct Ha as (_ & _ & -> & _). destruct Hb as (_ & _ & -> & _). apply conv_list_bound; auto. }
  assert (HM : M < modulus).
  { apply (group_room_word M w); auto. pose proof (in_word_max _ _ WP LP). lia. }
  eapply product_dec; [apply is_bn_vals, Ha|apply is_bn_vals, Hb|auto|auto|exact HB|lia|]. intros pp Hpp. apply dec_ns.
  eapply dec_iff; [|apply (regroup_exact_dec (from_poly pp w (mult_word a b)) prod (convs A B) P)];
    rewrite ?from_poly_bparams; cbn [limb_width max_word]; auto.
  - fold M. rewrite convs_value. reflexivity.
  - apply Hpp.
  - apply Hp.
  - eapply from_poly_lv; eauto.
  - apply Hp.
  - unfold from_poly. cbn [limb_values]. now apply Hpp.
  - now apply Hp.
  - rewrite convs_length. lia.
Qed.

Lemma mult_dec a b A B :
  let w := limb_width (bparams a) in
  let M := Z.max (mult_word a b) (2 ^ Z.of_nat w - 1) in
  let g := group_size M w in
  let V := value_of (2 ^ Z.of_nat w) A * value_of (2 ^ Z.of_nat w) B in
  let n := (length A + length B)%nat in
  limb_width (bparams b) = w ->
  is_bn rho Honest a A -> is_bn rho Honest b B -> in_word a A -> in_word b B ->
  (1 <= w)%nat -> (w < NUM_BITS)%nat -> (1 <= length A)%nat -> (1 <= length B)%nat ->
  0 <= V < 2 ^ Z.of_nat (w * n) ->
  group_no_wrap M w -> group_room M w ->
  dec rho (mult a b) (V < 2 ^ Z.of_nat (w * (n_groups (n - 1) g * g))) (fun p => is_bn rho Honest p (map (digit w V) (seq 0 n)) /\
    in_word p (map (digit w V) (seq 0 n)) /\ limb_width (bparams p) = w).
Proof.
  intros w M g V n W1 Ha Hb WA WB Hw Hw' LA LB HV HN HG. unfold mult, width_agreement.
  rewrite W1. fold w. rewrite Nat.eqb_refl. cbn [lift bind].
  assert (NA : n_limbs (bparams a) = length A) by apply Ha.
  assert (NB : n_limbs (bparams b) = length B) by apply Hb.
  destruct (digits_facts w n V HV) as (LP & RP & VP). set (P := map (digit w V) (seq 0 n)) in *.
  set (mb := ((0 <? min_bits (bparams a)) && (0 <? min_bits (bparams b)))%nat).
  rewrite NA, NB, Nat.add_comm. fold n.
  eapply (dec_step _ _ _ _ (fun p => is_bn rho Honest p P /\ bparams p = params_new w n)).
  { apply hwp_ns. eapply hwp_awp.
    apply (alloc_from_nat_awp rho Honest _ w n P); auto.
    - eapply range_canon; eauto.
    - intros _. split; [unfold n; lia|]. split; auto. exists V.
      rewrite (is_bn_value _ _ _ _ Ha eq_refl), (is_bn_value _ _ _ _ Hb eq_refl), W1. fold w. cbn [grab rbind].
      split; [reflexivity|]. split; [exact HV|]. reflexivity. }
  intros p0 [Hp0 Pp0]. set (p := if mb then _ else _).
  assert (Pp : max_word (bparams p) = 2 ^ Z.of_nat w - 1 /\ limb_width (bparams p) = w).
  { unfold p, set_min_bits, with_params. destruct mb; cbn [bparams max_word limb_width]; rewrite Pp0; (split; [apply params_word|reflexivity]). }
  assert (Hp : is_bn rho Honest p P) by (unfold p; destruct mb; exact Hp0).
  clearbody p. clear p0 Hp0 Pp0 mb. destruct Pp as [Pm Pw].
  assert (WP : in_word p P).
  { unfold in_word. rewrite Pm. eapply Forall_impl; [|exact RP]. cbv beta. lia. }
  eapply (dec_step _ _ _ _ (fun _ => True)).
  { apply hwp_ns. eapply hwp_awp, awp_mono; [apply (assert_well_formed_awp rho one Honest p P Hp)|auto].
    - rewrite Pw, width1_pos by auto. eapply Forall_impl; [|exact RP]. cbv beta. lia.
    - intros _. rewrite Pw. lia. }
  intros _ _. pose proof (verify_mult_dec a b p A B P) as HD. cbv zeta in HD. fold w in HD. rewrite Pm in HD. fold M in HD.
  eapply dec_iff; [|eapply dec_bind; [apply dec_ns, HD; auto; lia|intros _ _; apply dec_ret; auto]]. clear HD.
  unfold sides_zero. fold g. rewrite convs_length, LP. fold n.
    assert (Hg : (1 <= g)%nat) by apply HG. assert (n1 : (1 <= n - 1)%nat \/ n = 1%nat) by lia.
    assert (N1 : (n - 1 <= n_groups (n - 1) g * g)%nat) by (apply n_groups_fit; unfold n in *; lia).
    assert (N2 : (n <= n_groups n g * g)%nat) by (apply n_groups_fit; unfold n in *; lia).
    assert (HMn : (n_groups (n - 1) g <= n_groups n g)%nat).
    { apply n_groups_mono; lia. }
    rewrite Nat.min_l by lia. split.
    + intros [[_ HZ] _]. rewrite <- VP. apply value_high; auto. intros i Hi. now apply HZ.
    + intros HS. split; [|exact I]. split; [unfold V in *; now rewrite VP|]. intros i Hi. split.
      * apply nth_overflow. rewrite convs_length. unfold n in *. lia.
      * destruct (Nat.lt_ge_cases i n) as [Hi'|Hi']; [|apply nth_overflow; lia].
        unfold P. rewrite nth_map_seq by auto. apply digit_zero. split; [apply HV|].
        eapply Z.lt_le_trans; [exact HS|]. apply pow2_le. apply Nat.mul_le_mono_l. exact Hi.
Qed.

(** The comparison shared by the divisions. *)
Lemma mod_check_dec {T} a b m q r A B Mm Q R w (k : prog T) (post : T -> Prop) :
  is_bn rho Honest a A -> is_bn rho Honest b B -> is_bn rho Honest m Mm -> is_bn rho Honest q Q -> is_bn rho Honest r R ->
  in_word a A -> in_word b B -> in_word m Mm -> in_word q Q -> in_word r R ->
  max_word (bparams q) = 2 ^ Z.of_nat w - 1 -> 0 <= max_word (bparams r) ->
  (1 <= w)%nat -> (1 <= length A)%nat -> (1 <= length B)%nat -> (1 <= length Mm)%nat -> (1 <= length Q)%nat ->
  let M := mod_word a b m (length Q) (max_word (bparams r)) w in
  group_no_wrap M w -> group_room M w -> hwp rho k post ->
  forall n1 n2 n3,
  dec rho (
    let! lhs := ns n1 (alloc_product (to_poly a) (to_poly b)) in
    let! right_product := ns n2 (alloc_product (to_poly q) (to_poly m)) in
    let! _ := ns n3 (equal_when_carried_regroup (from_poly lhs w (left_max_word a b))
       (from_poly (poly_sum right_product (to_poly r)) w (right_max_word q m r))) in k)
    (value_of (2 ^ Z.of_nat w) A * value_of (2 ^ Z.of_nat w) B =
       value_of (2 ^ Z.of_nat w) Q * value_of (2 ^ Z.of_nat w) Mm + value_of (2 ^ Z.of_nat w) R /\
     no_excess (group_size M w) A B Q Mm R) post.
Proof.
  intros Ha Hb Hm Hq Hr WA WB WM WQ WR Pq Pr Hw LA LB LM LQ M HN HG HK n1 n2 n3.
  assert (La : length (limbs a) = length A) by apply (ev_length _ _ _ (proj1 Ha)).
  assert (Lb : length (limbs b) = length B) by apply (ev_length _ _ _ (proj1 Hb)).
  assert (Lm : length (limbs m) = length Mm) by apply (ev_length _ _ _ (proj1 Hm)).
  assert (Lq : length (limbs q) = length Q) by apply (ev_length _ _ _ (proj1 Hq)).
  assert (HMM : M = Z.max (left_max_word a b) (right_max_word q m r)).
  { unfold M, mod_word, product_word, left_max_word, right_max_word. rewrite Lq, Pq. reflexivity. }
  pose proof (in_word_max _ _ WA LA). pose proof (in_word_max _ _ WB LB). pose proof (in_word_max _ _ WM LM).
  pose proof (in_word_max _ _ WQ LQ).
  assert (BL : Forall (fun d => 0 <= d <= left_max_word a b) (convs A B)).
  { unfold left_max_word. rewrite La, Lb. apply conv_list_bound; auto. }
  assert (BQ : Forall (fun d => 0 <= d <= right_max_word q m r - max_word (bparams r)) (convs Q Mm)).
  { unfold right_max_word. rewrite Lq, Lm. eapply Forall_impl; [|apply conv_list_bound; [exact WQ|exact WM]].
    cbv beta. lia. }
  assert (R0 : 0 <= left_max_word a b) by (unfold left_max_word; apply Z.mul_nonneg_nonneg; [apply Z.mul_nonneg_nonneg|]; lia).
  assert (R1 : 0 <= right_max_word q m r - max_word (bparams r)).
  { unfold right_max_word. apply Zle_minus_le_0. rewrite <- (Z.add_0_l (max_word (bparams r))) at 1. apply Z.add_le_mono_r.
    apply Z.mul_nonneg_nonneg; [apply Z.mul_nonneg_nonneg|]; lia. }
  assert (BR : Forall (fun d => 0 <= d <= right_max_word q m r) (rsum (convs Q Mm) R)).
  { replace (right_max_word q m r) with (right_max_word q m r - max_word (bparams r) + max_word (bparams r)) by lia.
    apply rsum_bound; auto. }
  assert (HM : M < modulus) by (apply (group_room_word M w); auto; lia).
  eapply product_dec; [apply is_bn_vals, Ha|apply is_bn_vals, Hb|auto|auto|exact BL|lia|]. intros lhs Hl.
  eapply product_dec; [apply is_bn_vals, Hq|apply is_bn_vals, Hm|auto|auto|exact BQ|lia|]. intros rp Hrp.
  assert (HS : vals_ok rho Honest (poly_sum rp (to_poly r)) (rsum (convs Q Mm) R)).
  { eapply sum_vals; eauto using is_bn_vals. lia. }
  eapply dec_iff; [|eapply dec_bind; [apply dec_ns, (regroup_exact_dec (from_poly lhs w (left_max_word a b))
       (from_poly (poly_sum rp (to_poly r)) w (right_max_word q m r)) (convs A B) (rsum (convs Q Mm) R))|intros _ _; apply dec_hwp; exact HK]];
    rewrite ?from_poly_bparams; cbn [limb_width max_word]; rewrite <- ?HMM; auto.
  - rewrite rsum_value, !convs_value. rewrite sides_zero_no_excess; auto; [tauto|..].
    + eapply Forall_impl; [|exact WQ]. cbv beta. lia.
    + eapply Forall_impl; [|exact WM]. cbv beta. lia.
    + eapply Forall_impl; [|exact WR]. cbv beta. lia.
  - apply Hl.
  - apply HS.
  - eapply from_poly_lv; eauto.
  - eapply from_poly_lv; eauto.
  - unfold from_poly. cbn [limb_values]. now apply Hl.
  - unfold from_poly. cbn [limb_values]. now apply HS.
  - rewrite convs_length. lia.
  - rewrite rsum_length, convs_length. lia.
Qed.

Lemma mult_mod_dec a b m A B Mm :
  let w := limb_width (bparams a) in
  let X := 2 ^ Z.of_nat w in
  let ql := q_limbs (n_bits_of a + n_bits_of b) (min_bits (bparams m)) w in
  let M := mod_word a b m ql (X - 1) w in
  let V := value_of X A * value_of X B in
  let Q := map (digit w (V / value_of X Mm)) (seq 0 ql) in
  let R := map (digit w (V mod value_of X Mm)) (seq 0 (length Mm)) in
  limb_width (bparams b) = w -> limb_width (bparams m) = w \/ length Mm = 1%nat ->
  is_bn rho Honest a A -> is_bn rho Honest b B -> is_bn rho Honest m Mm ->
  in_word a A -> in_word b B -> in_word m Mm ->
  (1 <= w)%nat -> (w < NUM_BITS)%nat -> (1 <= length A)%nat -> (1 <= length B)%nat -> (1 <= length Mm)%nat ->
  0 <= V -> 0 < value_of X Mm <= 2 ^ Z.of_nat (w * length Mm) -> V / value_of X Mm < 2 ^ Z.of_nat (w * ql) ->
  group_no_wrap M w -> group_room M w ->
  dec rho (mult_mod a b m) (no_excess (group_size M w) A B Q Mm R) (fun qr =>
    is_bn rho Honest (fst qr) Q /\ is_bn rho Honest (snd qr) R /\ in_word (fst qr) Q /\ in_word (snd qr) R /\
    bparams (fst qr) = params_new w ql /\ bparams (snd qr) = params_new w (length Mm)).
Proof.
  intros w X ql M V Q R W1 W2 Ha Hb Hm WA WB WM Hw Hw' LA LB LM HV [HM0 HM1] Hq HN HG.
  unfold mult_mod, width_agreement. rewrite W1. fold w. rewrite Nat.eqb_refl. cbn [lift bind].
  rewrite !n_bits_ok by (rewrite ?(proj1 (proj2 (proj2 Ha))), ?(proj1 (proj2 (proj2 Hb))); auto). cbn [lift bind].
  unfold quotient_limbs. rewrite (proj2 (Nat.eqb_neq w 0)) by lia. cbn [lift bind].
  fold (q_limbs (n_bits_of a + n_bits_of b) (min_bits (bparams m)) w). fold ql.
  assert (Lm : length (limbs m) = length Mm) by apply (ev_length _ _ _ (proj1 Hm)). rewrite Lm.
  assert (HmX : value m = Some (value_of X Mm)).
  { rewrite (is_bn_value _ _ _ _ Hm eq_refl). f_equal.
    destruct W2 as [->|H1]; [reflexivity|]. destruct Mm as [|y [|]]; try discriminate. cbn [value_of]. ring. }
  rewrite (is_bn_value _ _ _ _ Ha eq_refl), (is_bn_value _ _ _ _ Hb eq_refl), HmX, W1. fold w. fold X. cbn [grab rbind]. fold V.
  pose proof (Z.mod_pos_bound V (value_of X Mm) HM0) as Hmod. pose proof (Z.div_pos V (value_of X Mm) HV HM0) as Hdiv.
  destruct (digits_facts w ql (V / value_of X Mm) ltac:(lia)) as (LQ & RQ & VQ).
  destruct (digits_facts w (length Mm) (V mod value_of X Mm) ltac:(lia)) as (LR & RR & VR).
  fold Q in LQ, RQ, VQ. fold R in LR, RR, VR.
  assert (HE : V = V / value_of X Mm * value_of X Mm + V mod value_of X Mm) by (pose proof (Z.div_mod V (value_of X Mm)); lia).
  destruct (quot_rem_unique V (value_of X Mm) (V / value_of X Mm) (V mod value_of X Mm)) as [U1 U2]; auto.
  assert (LQ1 : (1 <= ql)%nat) by apply Nat.le_add_l.
  apply (range_dec _ _ _ w ql Q); auto. { now rewrite U1, VQ. }
  intros q Hq' Pq WQ. apply (range_dec _ _ _ w (length Mm) R); auto. { now rewrite U2, VR. }
  intros r Hr Pr WR.
  assert (Prm : max_word (bparams r) = X - 1) by (rewrite Pr; apply params_word).
  eapply dec_iff; [|apply (mod_check_dec a b m q r A B Mm Q R w)]; auto; rewrite ?Prm, ?LQ; auto.
  - fold X. fold M. change (2 ^ Z.of_nat w) with X in VQ, VR. rewrite VQ, VR. tauto.
  - rewrite Pq. apply params_word.
  - unfold X. pose proof (pow2_pos w). lia.
  - cbn [hwp fst snd]. auto 8.
Qed.

Lemma apm_dec a b m r A B Mm R :
  let w := limb_width (bparams a) in
  let X := 2 ^ Z.of_nat w in
  let ql := (length A + length B)%nat in
  let M := mod_word a b m ql (max_word (bparams r)) w in
  let V := value_of X A * value_of X B in
  let Q := map (digit w (V / value_of X Mm)) (seq 0 ql) in
  limb_width (bparams b) = w -> limb_width (bparams m) = w -> limb_width (bparams r) = w ->
  is_bn rho Honest a A -> is_bn rho Honest b B -> is_bn rho Honest m Mm -> is_bn rho Honest r R ->
  in_word a A -> in_word b B -> in_word m Mm -> in_word r R -> 0 <= max_word (bparams r) ->
  (1 <= w)%nat -> (w < NUM_BITS)%nat -> (1 <= length A)%nat -> (1 <= length B)%nat -> (1 <= length Mm)%nat ->
  0 <= V -> 0 < value_of X Mm -> V / value_of X Mm < 2 ^ Z.of_nat (w * ql) ->
  group_no_wrap M w -> group_room M w ->
  dec rho (assert_product_mod a b m r) (value_of X R = V mod value_of X Mm /\ no_excess (group_size M w) A B Q Mm R) (fun q =>
    is_bn rho Honest q Q /\ in_word q Q /\ bparams q = params_new w ql).
Proof.
  intros w X ql M V Q W1 W2 W3 Ha Hb Hm Hr WA WB WM WR Prm Hw Hw' LA LB LM HV HM0 Hq HN HG.
  unfold assert_product_mod, width_agreement. rewrite W1, W2, W3. fold w. rewrite Nat.eqb_refl. cbn [lift bind].
  rewrite (ev_length _ _ _ (proj1 Ha)), (ev_length _ _ _ (proj1 Hb)). fold ql.
  rewrite (is_bn_value _ _ _ _ Ha eq_refl), (is_bn_value _ _ _ _ Hb eq_refl), (is_bn_value _ _ _ _ Hm eq_refl), W1, W2.
  fold w. fold X. cbn [grab rbind]. fold V.
  pose proof (Z.mod_pos_bound V (value_of X Mm) HM0) as Hmod. pose proof (Z.div_pos V (value_of X Mm) HV HM0) as Hdiv.
  destruct (digits_facts w ql (V / value_of X Mm) ltac:(lia)) as (LQ & RQ & VQ). fold Q in LQ, RQ, VQ.
  assert (HE : V = V / value_of X Mm * value_of X Mm + V mod value_of X Mm) by (pose proof (Z.div_mod V (value_of X Mm)); lia).
  destruct (quot_rem_unique V (value_of X Mm) (V / value_of X Mm) (V mod value_of X Mm)) as [U1 U2]; auto.
  assert (LQ1 : (1 <= ql)%nat) by (unfold ql; lia).
  apply (range_dec _ _ _ w ql Q); auto. { now rewrite U1, VQ. }
  intros q Hq' Pq WQ.
  eapply dec_iff; [|apply (mod_check_dec a b m q r A B Mm Q R w)]; auto; rewrite ?LQ; auto.
  - fold X. fold M. change (2 ^ Z.of_nat w) with X in VQ. rewrite VQ. fold V.
    assert (K : V = V / value_of X Mm * value_of X Mm + value_of X R <-> value_of X R = V mod value_of X Mm) by lia. rewrite K. reflexivity.
  - rewrite Pq. apply params_word.
  - cbn [hwp]. auto.
Qed.

Lemma red_mod_dec a m A Mm :
  let w := limb_width (bparams a) in
  let X := 2 ^ Z.of_nat w in
  let ql := q_limbs (n_bits_of a) (min_bits (bparams m)) w in
  let M := Z.max (max_word (bparams a)) (product_word ql (X - 1) (length Mm) (max_word (bparams m)) + (X - 1)) in
  let V := value_of X A in
  let Q := map (digit w (V / value_of X Mm)) (seq 0 ql) in
  let R := map (digit w (V mod value_of X Mm)) (seq 0 (length Mm)) in
  limb_width (bparams m) = w ->
  is_bn rho Honest a A -> is_bn rho Honest m Mm -> in_word a A -> in_word m Mm ->
  (1 <= w)%nat -> (w < NUM_BITS)%nat -> (1 <= length A)%nat -> (1 <= length Mm)%nat ->
  0 <= V -> 0 < value_of X Mm <= 2 ^ Z.of_nat (w * length Mm) -> V / value_of X Mm < 2 ^ Z.of_nat (w * ql) ->
  group_no_wrap M w -> group_room M w ->
  dec rho (red_mod a m) (no_excess (group_size M w) A [1] Q Mm R) (fun r =>
    is_bn rho Honest r R /\ in_word r R /\ bparams r = params_new w (length Mm)).
Proof.
  intros w X ql M V Q R W2 Ha Hm WA WM Hw Hw' LA LM HV [HM0 HM1] Hq HN HG.
  unfold red_mod, width_agreement. rewrite W2. fold w. rewrite Nat.eqb_refl. cbn [lift bind].
  rewrite !n_bits_ok by (rewrite ?(proj1 (proj2 (proj2 Ha))); auto). cbn [lift bind].
  unfold quotient_limbs. rewrite (proj2 (Nat.eqb_neq w 0)) by lia. cbn [lift bind].
  fold (q_limbs (n_bits_of a) (min_bits (bparams m)) w). fold ql.
  assert (Lm : length (limbs m) = length Mm) by apply (ev_length _ _ _ (proj1 Hm)). rewrite Lm.
  rewrite (is_bn_value _ _ _ _ Ha eq_refl), (is_bn_value _ _ _ _ Hm eq_refl), W2. fold w. fold X. cbn [grab rbind]. fold V.
  pose proof (Z.mod_pos_bound V (value_of X Mm) HM0) as Hmod. pose proof (Z.div_pos V (value_of X Mm) HV HM0) as Hdiv.
  destruct (digits_facts w ql (V / value_of X Mm) ltac:(lia)) as (LQ & RQ & VQ).
  destruct (digits_facts w (length Mm) (V mod value_of X Mm) ltac:(lia)) as (LR & RR & VR).
  fold Q in LQ, RQ, VQ. fold R in LR, RR, VR.
  assert (HE : V = V / value_of X Mm * value_of X Mm + V mod value_of X Mm) by (pose proof (Z.div_mod V (value_of X Mm)); lia).
  destruct (quot_rem_unique V (value_of X Mm) (V / value_of X Mm) (V mod value_of X Mm)) as [U1 U2]; auto.
  assert (LQ1 : (1 <= ql)%nat) by apply Nat.le_add_l.
  apply (range_dec _ _ _ w ql Q); auto. { now rewrite U1, VQ. }
  intros q Hq' Pq WQ. apply (range_dec _ _ _ w (length Mm) R); auto. { now rewrite U2, VR. }
  intros r Hr Pr WR. change (2 ^ Z.of_nat w) with X in VQ, VR, RQ, RR.
  assert (Prm : max_word (bparams r) = X - 1) by (rewrite Pr; apply params_word).
  assert (Pqm : max_word (bparams q) = X - 1) by (rewrite Pq; apply params_word).
  assert (Lq : length (limbs q) = ql) by (rewrite (ev_length _ _ _ (proj1 Hq')); auto).
  assert (HRM : right_max_word q m r = product_word ql (X - 1) (length Mm) (max_word (bparams m)) + (X - 1)).
  { unfold right_max_word, product_word. rewrite Lq, Lm, Pqm, Prm. reflexivity. }
  pose proof (in_word_max _ _ WQ ltac:(lia)). pose proof (in_word_max _ _ WM LM). pose proof (in_word_max _ _ WR ltac:(lia)).
  assert (BC : Forall (fun d => 0 <= d <= product_word ql (X - 1) (length Mm) (max_word (bparams m))) (convs Q Mm)).
  { rewrite <- Pqm, <- LQ. unfold product_word. apply conv_list_bound; auto. }
  assert (C0 : 0 <= product_word ql (X - 1) (length Mm) (max_word (bparams m))).
  { unfold product_word. apply Z.mul_nonneg_nonneg; [apply Z.mul_nonneg_nonneg|]; lia. }
  assert (BR : Forall (fun d => 0 <= d <= right_max_word q m r) (rsum (convs Q Mm) R)).
  { rewrite HRM. apply rsum_bound; auto; try lia. rewrite <- Prm. exact WR. }
  assert (HM : M < modulus) by (apply (group_room_word M w); auto; lia).
  eapply product_dec; [apply is_bn_vals, Hq'|apply is_bn_vals, Hm|lia|auto|exact BC|lia|]. intros rp Hrp.
  assert (HS : vals_ok rho Honest (poly_sum rp (to_poly r)) (rsum (convs Q Mm) R)).
  { eapply sum_vals; eauto using is_bn_vals. lia. }
  eapply dec_iff; [|eapply dec_bind; [apply dec_ns, (regroup_exact_dec a
       (from_poly (poly_sum rp (to_poly r)) w (right_max_word q m r)) A (rsum (convs Q Mm) R))|intros _ _; apply dec_ret; auto]];
    rewrite ?from_poly_bparams; cbn [limb_width max_word]; fold w; rewrite ?HRM; auto.
  - fold M. fold X. rewrite rsum_value, convs_value, VQ, VR.
    rewrite <- (sides_zero_no_excess M w A [1] Q Mm R); auto; try lia.
    + assert (C1 : convs A [1] = A).
      { apply (nth_ext _ _ 0 0); [rewrite convs_length; cbn [length]; lia|]. intros i Hi. rewrite convs_nth by (cbn; lia).
        unfold conv. cbn [sum_n]. rewrite Nat.sub_diag. cbn [nth]. rewrite (sum_n_ext _ _ (fun _ => 0)), sum_n_zero; [ring|].
        intros j Hj. destruct (i - j)%nat as [|[|k]] eqn:Hk; [lia|cbn [nth]; ring|cbn [nth]; ring]. }
      rewrite C1. unfold V in HE. tauto.
    + eapply Forall_impl; [|exact WQ]. cbv beta. lia.
    + eapply Forall_impl; [|exact WM]. cbv beta. lia.
    + eapply Forall_impl; [|exact WR]. cbv beta. lia.
  - apply Ha.
  - apply HS.
  - apply Ha.
  - eapply from_poly_lv; eauto.
  - now apply Ha.
  - unfold from_poly. cbn [limb_values]. now apply HS.
  - unfold in_word. rewrite from_poly_bparams. cbn [max_word]. rewrite <- HRM. exact BR.
  - rewrite rsum_length, convs_length. lia.
Qed.
End Rho.
End Exact.
