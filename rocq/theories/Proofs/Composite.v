(** C109: proper divisors chosen by the prover. *)
From Coq Require Import ZArith Znumtheory Bool List Lia ZifyBool ZifyNat.
From Verif.Model Require Import Base CS Bellpepper Util Poly Bignat Fields F64.
From Verif.Spec Require Import Spec SpecF64 SpecExpr SpecModular SpecExact SpecWide SpecSub SpecComposite.
From Verif.Proofs Require Import Field Arith Convert Limbs Wp Lc BitNum PolyP BoolP BignatEq BignatAlloc Group Carry Regroup Mult MultC TopBits TopPoly TopBignat1 PureOps TopPure Owp Pwp MinBits MuxP SubP TopBignat2 TopBignat3 Room TopBignat4 PrimeFields F64P TopF64 ExactP TopExact SubFree DividesP Total TopTotal DecP OutOfRange Relation Wide WidePower CheckedSub Residue Congruence.
Import ListNotations.
Local Open Scope Z_scope.

(** ** Divisors *)
Lemma has_divisor c : 1 < c -> ~ prime c -> exists d, 1 < d < c /\ (d | c) /\ d * d <= c.
Proof.
  intros Hc HP. destruct (not_prime_divide c Hc HP) as (d & Hd & [q Hq]).
  assert (Hq1 : 1 < q < c) by nia. destruct (Z.le_gt_cases d q) as [H|H].
  - exists d. split; [exact Hd|]. split; [exists q; exact Hq|nia].
  - exists q. split; [exact Hq1|]. split; [exists d; lia|nia].
Qed.
Lemma no_divisor c d : prime c -> 1 < d < c -> ~ (d | c).
Proof. intros HP Hd K. destruct (prime_divisors c HP d K) as [|[|[|]]]; lia. Qed.

Lemma pwp_rets {E : Env} {A} md rho (m : prog A) : forall ys (Q R : A -> Prop), pwp md rho m ys Q -> rets m R -> pwp md rho m ys (fun a => Q a /\ R a).
Proof.
  induction m as [a|e| |inp nm w k IH|nm c k IH|nm k IH|k IH]; simpl; intros ys Q R H K; auto; try tauto.
  - destruct ys; [tauto|]. intros x v Hx Hv. apply IH; auto.
  - destruct H. auto.
Qed.
Lemma min_bits_rets {E : Env} b k : rets (enforce_min_bits b k) (fun c => c = set_min_bits b k).
Proof.
  unfold enforce_min_bits. apply rets_skip. intros bv. apply rets_skip. intros bits. apply rets_skip. intros j. cbv zeta.
  apply rets_skip. intros [x v]. apply rets_skip. intros _. reflexivity.
Qed.
Lemma is_bn_min {E : Env} rho md b vs k : is_bn rho md b vs -> is_bn rho md (set_min_bits b k) vs.
Proof. intros H. exact H. Qed.

Section Composite.
Context {E : Env} {W : Wf E} (HU : usual_field E).

Section Rho.
Variable (rho : assignment) (one : rho ONE = 1).

(** [enforce_min_bits] in an honest run. *)
Lemma min_bits_hwp b vs k : let w := limb_width (bparams b) in
  is_bn rho Honest b vs -> vs <> [] -> Forall (fun v => v < 2 ^ Z.of_nat w) vs -> (1 <= w <= NUM_BITS)%nat ->
  (1 <= k)%nat -> Z.of_nat (w * length vs) < modulus -> 2 ^ Z.of_nat (k - 1) <= value_of (2 ^ Z.of_nat w) vs ->
  hwp rho (enforce_min_bits b k) (fun c => c = set_min_bits b k).
Proof using W one.
  intros w HB HN HR Hw Hk Hm HV. pose proof HB as (_ & _ & _ & HC & _).
  assert (Hlen : length (flat_map (BignatAlloc.bits_of w) vs) = (w * length vs)%nat).
  { clear. induction vs; cbn [flat_map length]; [lia|]. rewrite app_length, bits_of_length, IHvs. lia. }
  assert (HVal : bits_value (flat_map (BignatAlloc.bits_of w) vs) = value_of (2 ^ Z.of_nat w) vs).
  { apply bits_value_of_limbs. clear -HR HC. rewrite Forall_forall in *. intros v Hv. specialize (HR v Hv). specialize (HC v Hv). unfold canon in HC. lia. }
  unfold enforce_min_bits. hstep. hstep. eapply hwp_mono; [eapply hwp_awp; apply (bn_decompose_awp rho one Honest b vs HB HR); apply Hw|].
  cbv beta. fold w. intros bv [[H1 H1'] H2].
  assert (H3 : flat_map (BignatAlloc.bits_of w) vs <> []).
  { intros C. apply (f_equal (@length _)) in C. rewrite Hlen in C. destruct vs; [congruence|]. cbn [length] in C. lia. }
  specialize (H2 eq_refl H3). pose proof (Forall2_length _ _ _ H1') as HL.
  destruct (into_bits_ok bv _ H2 (eq_sym HL)) as (bits & I1 & I2 & I3).
  set (bs := flat_map (BignatAlloc.bits_of w) vs) in *. rewrite I1. cbn [lift bind].
  rewrite min_skip_pos by auto. cbn [lift bind].
  assert (I4 : wire_bits rho (map b_lc bits) bs) by now rewrite I2.
  pose proof (Forall2_skipn _ (k - 1) _ _ I4) as H4. rewrite skipn_map in H4.
  assert (I2' : map b_val (skipn (k - 1) bits) = map Some (skipn (k - 1) bs)). { rewrite <- !skipn_map. now rewrite I3. }
  destruct (count_bits_ok _ _ I2' fzero) as (x & C1 & C2 & C3); [apply canon_0|].
  rewrite <- HVal in HV. apply upper_ones in HV. pose proof (ones_in_range (skipn (k - 1) bs)) as HO. rewrite skipn_length, Hlen in HO.
  assert (Hx : ~ eqp x 0). { rewrite C3. change fzero with 0. rewrite Z.add_0_l. intros C. apply eqp_small in C; lia. }
  destruct (finvert_spec x Hx) as (i & V1 & V2 & V3).
  hstep. hstep; [rewrite C1; cbn [rbind]; rewrite V1; reflexivity|]. intros y Hy. hstep. hstep.
  - rewrite (sum_bits_eval rho _ _ H4). lcs. rewrite Hy, one. change fzero with 0 in C3. rewrite Z.add_0_l in C3. now rewrite <- C3, Z.mul_comm.
  - hstep. reflexivity.
Qed.

(** Division and comparison, with the digits the prover supplies. *)
Definition div_aux (B Q C : list Z) : list Z :=
  let M := Z.max (product_word (length B) (2 ^ 64 - 1) (length C) (2 ^ 64 - 1)) (2 ^ 64 - 1) in
  range_aux 64 Q ++ convs B Q ++ regroup_aux M 64 (convs B Q) C.
Definition cmp_aux (T B D : list Z) : list Z :=
  (D ++ regroup_aux (2 ^ 64 - 1 + (2 ^ 64 - 1)) 64 T (rsum B D)) ++ flat_map (fun y => fits_aux y 64) D.

Lemma div_awp md x c B Q C : limb_width (bparams x) = 64%nat -> max_word (bparams x) = 2 ^ 64 - 1 -> limb_width (bparams c) = 64%nat -> max_word (bparams c) = 2 ^ 64 - 1 ->
  is_bn rho md x B -> is_bn rho md c C -> digits B -> digits C -> (1 <= length B)%nat -> Z.of_nat (length B) <= 2 ^ 40 -> (1 <= length C)%nat ->
  length Q = length C -> digits Q -> int64 B * int64 Q = int64 C -> 0 < int64 B ->
  awp md rho (divides x c) (div_aux B Q C) (fun _ => True).
Proof using HU W one.
  intros WX MX WC MC Ix Ic DB DC LB UB LC LQ DQ HV H0. destruct (word_product HU (length B) (length C) LB LC ltac:(lia)) as (R1 & R2 & R3).
  pose proof (divides_awp rho one md x c B C Q) as K. cbv zeta in K. rewrite WX, WC, MX, MC in K. change (2 ^ Z.of_nat 64) with (2 ^ 64) in K. fold (int64 B) (int64 C) (int64 Q) (digits Q) in K.
  unfold div_aux. apply K; auto; clear K; try lia.
  - now apply in_word64.
  - now apply in_word64.
  - apply (nb64 HU).
  - apply sides_zero_convs; [exact LB|lia|]. rewrite R3, LQ. intros i Hi. pose proof (common_ge 2 (length B + length C - 1) (length C) ltac:(lia)) as HG.
    split; [|apply nth_overflow; lia]. rewrite <- convs_nth by lia. apply (high_zero _ (length C)); [apply convs_nonneg; now apply digits_nonneg| |lia].
    rewrite convs_value. fold (int64 B) (int64 Q). rewrite HV. now apply digits_bound.
Qed.

Lemma cmp_awp md t x T B D : limb_width (bparams x) = 64%nat -> max_word (bparams x) = 2 ^ 64 - 1 -> limb_width (bparams t) = 64%nat -> max_word (bparams t) = 2 ^ 64 - 1 ->
  is_bn rho md t T -> is_bn rho md x B -> digits T -> digits B -> (1 <= length T)%nat -> length D = length T -> digits D -> int64 T = int64 B + int64 D ->
  awp md rho (checked_sub t x) (cmp_aux T B D) (fun _ => True).
Proof using HU W one.
  intros WX MX WT MT It Ix DT DB LT LD DD HV. destruct (word_sub HU) as [R1 R2].
  assert (HM : sub_word t x = 2 ^ 64 - 1 + (2 ^ 64 - 1)). { unfold sub_word. rewrite WT, MT, MX. change (2 ^ Z.of_nat 64) with (2 ^ 64). lia. }
  pose proof (checked_awp rho one md t x T B D) as K. cbv zeta in K. rewrite WT, HM in K. change (2 ^ Z.of_nat 64) with (2 ^ 64) in K. fold (int64 T) (int64 B) (int64 D) (digits D) in K.
  unfold cmp_aux. eapply awp_mono; [apply K; auto; clear K; try lia|auto].
  - now apply in_word64.
  - now apply in_word64.
  - apply (nb64 HU).
  - now apply (sides64 HU).
Qed.

Lemma cmp_dec t x T B : limb_width (bparams x) = 64%nat -> max_word (bparams x) = 2 ^ 64 - 1 -> limb_width (bparams t) = 64%nat -> max_word (bparams t) = 2 ^ 64 - 1 ->
  is_bn rho Honest t T -> is_bn rho Honest x B -> digits T -> digits B -> (1 <= length B <= length T)%nat ->
  dec rho (checked_sub t x) (int64 B <= int64 T) (fun _ => True).
Proof using HU W one.
  intros WX MX WT MT It Ix DT DB HL. destruct (word_sub HU) as [R1 R2]. pose proof (digits_bound T DT) as BT. pose proof (digits_bound B DB) as BB.
  assert (HP : 2 ^ Z.of_nat (64 * length B) <= 2 ^ Z.of_nat (64 * length T)) by (apply Z.pow_le_mono_r; lia).
  pose proof (in_word64 t T MT DT) as Wt. pose proof (in_word64 x B MX DB) as Wx.
  unfold checked_sub. apply (dec_iff rho _ (int64 B <= int64 T /\ True)); [tauto|].
  pose proof (sub_signed rho one t x T B) as K. cbv zeta in K. rewrite WT, WX, MX in K. change (2 ^ Z.of_nat 64) with (2 ^ 64) in K.
  assert (HM : sub_word t x = 2 ^ 64 - 1 + (2 ^ 64 - 1)). { unfold sub_word. rewrite WT, MT, MX. change (2 ^ Z.of_nat 64) with (2 ^ 64). lia. }
  rewrite HM in K. fold (int64 T) (int64 B) in K.
  eapply dec_bind; [apply dec_ns, K; auto; clear K; try lia; pose proof (nb64 HU); try lia|].
  cbv beta. intros d [D1 D2]. eapply dec_step; [apply hwp_ns, (well_formed_value rho one d _ _ D1)|].
  - rewrite D2, map_length, seq_length. reflexivity.
  - rewrite D2. cbn [params_new limb_width]. lia.
  - rewrite D2. cbn [params_new limb_width]. pose proof (nb64 HU). lia.
  - rewrite D2. cbn [params_new limb_width]. apply Forall_map, Forall_forall. intros. apply digit_range.
  - intros _ _. apply dec_ret. exact I.
Qed.
End Rho.

Lemma small_size n : Z.of_nat n <= 2 ^ 40 -> Z.of_nat (64 * n) < modulus.
Proof using HU W. intros H. pose proof (cap_modulus HU). assert (2 ^ 46 < 2 ^ 236) by (apply Z.pow_lt_mono_r; lia). lia. Qed.

Lemma small_digits B : digits B -> Forall canon B.
Proof using HU W.
  intros H. eapply Forall_impl; [|exact H]. cbv beta. intros z Hz. pose proof (cap_modulus HU). assert (2 ^ 64 < 2 ^ 236) by (apply Z.pow_lt_mono_r; lia). unfold canon. lia.
Qed.

Lemma divisor_exact wit f n c t C T B s rho0 x s' : good_for rho0 s -> num64 rho0 s c C -> num64 rho0 s t T -> int64 T = int64 C - 1 ->
  (1 <= n)%nat -> Z.of_nat n <= 2 ^ 40 -> run wit (proper_divisor f n c t) s = (Ok x, s') ->
  (completed s rho0 s' (fun rho => wires rho (limbs x) = B) <->
   length B = n /\ digits B /\ 1 < int64 B < int64 C /\ (int64 B | int64 C)).
Proof using HU W.
  intros G HC HT HV Hn Un Hr.
  destruct (num64_digits _ _ _ _ G HC) as (DC & LC & UC & NC). destruct (num64_digits _ _ _ _ G HT) as (DT & LT & UT & NT).
  pose proof (nb64 HU) as HN. pose proof (small_size n Un) as HS.
  destruct (word_product HU n (length C) Hn LC ltac:(lia)) as (R1 & R2 & R3). destruct (word_sub HU) as [S1 S2].
  split.
  - intros (rho & Hso & Hs & <-). pose proof (proj1 Hs) as one.
    destruct (bignat_for_is _ _ _ _ _ wit G (proj1 HC) Hso one) as [(Ec & _) Wc].
    destruct (bignat_for_is _ _ _ _ _ wit G (proj1 HT) Hso one) as [(Et & _) Wt].
    destruct HC as [_ (WC & MC & _)]. destruct HT as [_ (WT & MT & _)].
    set (Q := fun x : bignat => length (wires rho (limbs x)) = n /\ digits (wires rho (limbs x)) /\ 1 < int64 (wires rho (limbs x)) < int64 C /\ (int64 (wires rho (limbs x)) | int64 C)).
    change (Q x). apply (swp_run_any wit rho (proper_divisor f n c t) s x s' Q Hr Hs). unfold proper_divisor.
    sstep. sstep. apply alloc_from_nat_swp. intros b Pb Lb.
    set (B := wires rho (limbs b)). assert (LB : length B = n) by (unfold B, wires; rewrite map_length; exact Lb).
    assert (CB : Forall canon B). { unfold B, wires. apply Forall_forall. intros v Hv. apply in_map_iff in Hv as (l & <- & _). apply (fmk_canon (lc_eval rho l)). }
    assert (WB : limb_width (bparams b) = 64%nat) by now rewrite Pb. assert (MB : max_word (bparams b) = 2 ^ 64 - 1) by now rewrite Pb.
    sstep. sstep. eapply swp_mono; [apply swp_both; [apply (min_bits_swp rho one Any b 2 B (ev_wires _ _) CB); rewrite WB; exact HN|apply (enforce_min_bits_swp rho one Any b 2)]|].
    cbv beta. intros y [[Y1 Y2] (Y3 & Y4 & _)]. rewrite WB in Y1, Y2. change (2 ^ Z.of_nat 64) with (2 ^ 64) in Y1, Y2. fold (int64 B) in Y2. change (2 ^ Z.of_nat (2 - 1)) with 2 in Y2.
    assert (DB : digits B). { clear -Y1 CB. unfold digits. rewrite Forall_forall in *. intros v Hv. specialize (Y1 v Hv). specialize (CB v Hv). unfold canon in CB. lia. }
    assert (WY : limb_width (bparams y) = 64%nat) by (rewrite Y3; exact WB). assert (MY : max_word (bparams y) = 2 ^ 64 - 1) by (rewrite Y3; exact MB).
    assert (NY : n_limbs (bparams y) = length B) by (rewrite Y3, Pb; symmetry; exact LB). assert (Ey : ev rho (limbs y) B) by (rewrite Y4; apply ev_wires).
    pose proof (in_word64 y B MY DB) as Wy.
    sstep. sstep. eapply swp_mono.
    { apply (divides_swp rho one Any y c B C Ey Ec Wy Wc NY NC).
      - rewrite LB. pose proof (cap_modulus HU). assert (2 ^ 42 < 2 ^ 236) by (apply Z.pow_lt_mono_r; lia). lia.
      - rewrite WY, MY, MC, LB. exact R1. }
    cbv beta. intros _ [_ HD]. rewrite WY in HD. change (2 ^ Z.of_nat 64) with (2 ^ 64) in HD. fold (int64 B) (int64 C) in HD.
    sstep. sstep. eapply swp_mono.
    { apply (checked_swp rho one Any t y T B Et Ey Wt Wy NT NY); [lia|lia|].
      unfold sub_word. rewrite WT, MT, MY. change (2 ^ Z.of_nat 64) with (2 ^ 64). rewrite Z.max_r by lia. exact S1. }
    cbv beta zeta. intros d (P1 & _ & P3 & P4). rewrite WT in P1, P3, P4. unfold int_of in P4. rewrite P1 in P4. cbn [params_new limb_width] in P4. change (2 ^ Z.of_nat 64) with (2 ^ 64) in P3, P4.
    fold (int64 T) (int64 B) (int64 (wires rho (limbs d))) in P4. pose proof (digits_bound _ P3) as HB.
    sstep. unfold Q. rewrite Y4. fold B. split; [exact LB|]. split; [exact DB|]. split; [lia|exact HD].
  - intros (LB & DB & HB & [q Hq]). assert (NB : B <> []) by (intros ->; cbn [length] in LB; lia).
    pose proof (digits_bound C DC) as BC. pose proof (digits_bound T DT) as BT.
    destruct (exists_digits q (length C)) as (Qd & LQ & DQ & VQ); [nia|].
    destruct (exists_digits (int64 T - int64 B) (length T)) as (D & LD & DD & VD); [lia|].
    destruct (pwp_run wit (proper_divisor f n c t) s rho0 (B ++ min_bits_wits 64 2 B ++ div_aux B Qd C ++ cmp_aux T B D ++ [])
      (fun rho x => ev rho (limbs x) B) x s' G) as (rho & H1 & H2 & H3); [|exact Hr|].
    { intros rho Hso one.
      destruct (bignat_for_is _ _ _ _ _ wit G (proj1 HC) Hso one) as [Ic Wc].
      destruct (bignat_for_is _ _ _ _ _ wit G (proj1 HT) Hso one) as [It Wt].
      destruct HC as [_ (WC & MC & _)]. destruct HT as [_ (WT & MT & _)]. unfold proper_divisor.
      apply pwp_bind, pwp_ns. eapply pwp_mono; [apply awp_pwp, (alloc_from_nat_awp rho (md_of wit) f 64 n B (fun b => is_bn rho (md_of wit) b B /\ bparams b = params_new 64 n)); auto|].
      { now apply small_digits. }
      { intros K. exact (md_of_not wit _ K). }
      cbv beta. intros b [Ib Pb]. assert (WB : limb_width (bparams b) = 64%nat) by now rewrite Pb. assert (MB : max_word (bparams b) = 2 ^ 64 - 1) by now rewrite Pb.
      apply pwp_bind, pwp_ns. eapply pwp_mono.
      { apply pwp_rets; [|apply min_bits_rets]. pose proof (min_bits_pwp rho one (md_of wit) b 2 B) as K. cbv zeta in K. rewrite WB in K. change (2 ^ Z.of_nat 64) with (2 ^ 64) in K. fold (int64 B) in K.
        change (2 ^ Z.of_nat (2 - 1)) with 2 in K. apply K; auto; clear K; try lia; [apply md_of_any|]. eapply Forall_impl; [|exact DB]. cbv beta. lia. }
      cbv beta. intros y [_ ->]. apply pwp_bind, pwp_ns. eapply pwp_mono.
      { apply awp_pwp, (div_awp rho one (md_of wit) (set_min_bits b 2) c B Qd C); auto; try lia. }
      intros _ _. apply pwp_bind, pwp_ns. eapply pwp_mono.
      { apply awp_pwp, (cmp_awp rho one (md_of wit) t (set_min_bits b 2) T B D); auto; try lia. }
      intros _ _. cbn [pwp]. split; [reflexivity|]. apply Ib. }
    exists rho. split; [exact H1|]. split; [apply H2, same_on_refl|]. apply (ev_canon _ _ _ (H3 rho (same_on_refl _ _))). now apply small_digits.
Qed.

Lemma divisor_composite wit f n c t C T s rho0 x s' : good_for rho0 s -> num64 rho0 s c C -> num64 rho0 s t T -> int64 T = int64 C - 1 ->
  1 < int64 C -> (length C <= 2 * n)%nat -> Z.of_nat n <= 2 ^ 40 -> run wit (proper_divisor f n c t) s = (Ok x, s') ->
  (completed s rho0 s' (fun _ => True) <-> ~ prime (int64 C)).
Proof using HU W.
  intros G HC HT HV H1 Hn Un Hr. destruct (num64_digits _ _ _ _ G HC) as (DC & LC & UC & NC). pose proof (digits_bound C DC) as BC.
  pose proof (fun B => divisor_exact wit f n c t C T B s rho0 x s' G HC HT HV ltac:(lia) Un Hr) as K. split.
  - intros (rho & K1 & K2 & _) HP. destruct (proj1 (K (wires rho (limbs x)))) as (_ & _ & K3 & K4); [exists rho; auto|]. exact (no_divisor _ _ HP K3 K4).
  - intros HP. destruct (has_divisor _ H1 HP) as (d & Hd & HD & HQ).
    assert (HB : 0 <= d < 2 ^ Z.of_nat (64 * n)).
    { split; [lia|]. apply Z.nle_gt. intros HX. assert (2 ^ Z.of_nat (64 * n) * 2 ^ Z.of_nat (64 * n) <= d * d) by (apply Z.mul_le_mono_nonneg; lia).
      rewrite <- Z.pow_add_r in H by lia. assert (2 ^ Z.of_nat (64 * length C) <= 2 ^ (Z.of_nat (64 * n) + Z.of_nat (64 * n))) by (apply Z.pow_le_mono_r; lia). lia. }
    destruct (exists_digits d n HB) as (B & LB & DB & VB). destruct (proj2 (K B)) as (rho & K1 & K2 & _); [rewrite VB; auto|]. exists rho. auto.
Qed.

Lemma divisor_honest v n c t C T s : good s -> num64_at s c C -> num64_at s t T -> int64 T = int64 C - 1 ->
  (1 <= n)%nat -> Z.of_nat n <= 2 ^ 40 -> v < 2 ^ Z.of_nat (64 * n) -> 1 < v < int64 C -> (v | int64 C) ->
  exists x s', run true (proper_divisor (Ok v) n c t) s = (Ok x, s') /\ good s' /\ value x = Some v.
Proof using HU W.
  intros G HC HT HV Hn Un Hv H1 [q Hq]. pose proof (good_good_for s G) as GF.
  destruct (num64_digits _ _ _ _ GF (at_num64 _ _ _ HC)) as (DC & LC & UC & _). destruct (num64_digits _ _ _ _ GF (at_num64 _ _ _ HT)) as (DT & LT & UT & _).
  destruct HC as [Hc (WC & MC & _)]. destruct HT as [Ht (WT & MT & _)]. pose proof (digits_bound C DC) as BC. pose proof (digits_bound T DT) as BT.
  destruct (digits_facts 64 n v ltac:(lia)) as (LB & DB & VB). set (B := map (digit 64 v) (seq 0 n)) in *. change (2 ^ Z.of_nat 64) with (2 ^ 64) in DB, VB. fold (int64 B) in VB. change (digits B) in DB.
  assert (NB : B <> []) by (intros K; rewrite K in LB; cbn [length] in LB; lia).
  destruct (exists_digits q (length C)) as (Qd & LQ & DQ & VQ); [nia|].
  destruct (exists_digits (int64 T - v) (length T)) as (D & LD & DD & VD); [lia|].
  destruct (hwp_run (proper_divisor (Ok v) n c t) s (fun rho x => value x = Some v) G) as (x & s' & K1 & K2 & _ & K4).
  { intros rho Hag one. destruct (bignat_at_is _ _ _ _ Hc Hag one) as [Ic Wc]. destruct (bignat_at_is _ _ _ _ Ht Hag one) as [It Wt]. unfold proper_divisor.
    hstep. hstep. eapply hwp_mono.
    { eapply hwp_awp. apply (alloc_from_nat_awp rho Honest (Ok v) 64 n B (fun b => is_bn rho Honest b B /\ bparams b = params_new 64 n)); auto; [now apply small_digits|].
      intros _. split; [exact Hn|]. split; [apply (nb64 HU)|]. exists v. split; [reflexivity|]. split; [lia|reflexivity]. }
    cbv beta. intros b [Ib Pb]. assert (WB : limb_width (bparams b) = 64%nat) by now rewrite Pb. assert (MB : max_word (bparams b) = 2 ^ 64 - 1) by now rewrite Pb.
    hstep. hstep. eapply hwp_mono.
    { pose proof (min_bits_hwp rho one b B 2) as K. cbv zeta in K. rewrite WB in K. change (2 ^ Z.of_nat 64) with (2 ^ 64) in K. fold (int64 B) in K. change (2 ^ Z.of_nat (2 - 1)) with 2 in K.
      apply K; auto; clear K; try lia; [|pose proof (nb64 HU); lia|rewrite LB; apply (small_size n Un)]. eapply Forall_impl; [|exact DB]. cbv beta. lia. }
    cbv beta. intros y ->. hstep. hstep. eapply hwp_mono.
    { eapply hwp_awp. apply (div_awp rho one Honest (set_min_bits b 2) c B Qd C); auto; lia. }
    intros _ _. hstep. hstep. eapply hwp_mono.
    { eapply hwp_awp. apply (cmp_awp rho one Honest t (set_min_bits b 2) T B D); auto; lia. }
    intros _ _. hstep. cbn [set_min_bits with_params value]. rewrite (is_bn_value _ _ _ _ Ib eq_refl), WB. change (2 ^ Z.of_nat 64) with (2 ^ 64). fold (int64 B). now rewrite VB. }
  exists x, s'. split; [exact K1|]. split; [exact K2|]. exact (K4 _ (agree_asg s')).
Qed.
(** A divisor of [c] above one that need not be proper: the run completes, and passes exactly if it is. *)
Lemma divisor_verdict v n c t C T s : good s -> num64_at s c C -> num64_at s t T -> int64 T = int64 C - 1 ->
  (1 <= n <= length T)%nat -> v < 2 ^ Z.of_nat (64 * n) -> 1 < v -> 0 < int64 C -> (v | int64 C) ->
  exists x s', run true (proper_divisor (Ok v) n c t) s = (Ok x, s') /\ value x = Some v /\ (good s' <-> v < int64 C).
Proof using HU W.
  intros G HC HT HV Hn Hv H1 HP [q Hq]. pose proof (good_good_for s G) as GF.
  destruct (num64_digits _ _ _ _ GF (at_num64 _ _ _ HC)) as (DC & LC & UC & _). destruct (num64_digits _ _ _ _ GF (at_num64 _ _ _ HT)) as (DT & LT & UT & _).
  destruct HC as [Hc (WC & MC & _)]. destruct HT as [Ht (WT & MT & _)]. pose proof (digits_bound C DC) as BC. pose proof (digits_bound T DT) as BT.
  assert (Un : Z.of_nat n <= 2 ^ 40) by lia.
  destruct (digits_facts 64 n v ltac:(lia)) as (LB & DB & VB). set (B := map (digit 64 v) (seq 0 n)) in *. change (2 ^ Z.of_nat 64) with (2 ^ 64) in DB, VB. fold (int64 B) in VB. change (digits B) in DB.
  assert (NB : B <> []) by (intros K; rewrite K in LB; cbn [length] in LB; lia).
  destruct (exists_digits q (length C)) as (Qd & LQ & DQ & VQ); [nia|].
  destruct (dec_run (proper_divisor (Ok v) n c t) s (v < int64 C) (fun rho x => value x = Some v) G) as (x & s' & K1 & K2 & K3).
  { intros rho Hag one. destruct (bignat_at_is _ _ _ _ Hc Hag one) as [Ic Wc]. destruct (bignat_at_is _ _ _ _ Ht Hag one) as [It Wt]. unfold proper_divisor.
    eapply dec_step.
    { apply hwp_ns. eapply hwp_awp. apply (alloc_from_nat_awp rho Honest (Ok v) 64 n B (fun b => is_bn rho Honest b B /\ bparams b = params_new 64 n)); auto; [now apply small_digits|].
      intros _. split; [lia|]. split; [apply (nb64 HU)|]. exists v. split; [reflexivity|]. split; [lia|reflexivity]. }
    cbv beta. intros b [Ib Pb]. assert (WB : limb_width (bparams b) = 64%nat) by now rewrite Pb. assert (MB : max_word (bparams b) = 2 ^ 64 - 1) by now rewrite Pb.
    eapply dec_step.
    { apply hwp_ns. pose proof (min_bits_hwp rho one b B 2) as K. cbv zeta in K. rewrite WB in K. change (2 ^ Z.of_nat 64) with (2 ^ 64) in K. fold (int64 B) in K. change (2 ^ Z.of_nat (2 - 1)) with 2 in K.
      apply K; auto; clear K; try lia; [|pose proof (nb64 HU); lia|rewrite LB; apply (small_size n Un)]. eapply Forall_impl; [|exact DB]. cbv beta. lia. }
    cbv beta. intros y ->. eapply dec_step.
    { apply hwp_ns. eapply hwp_awp. apply (div_awp rho one Honest (set_min_bits b 2) c B Qd C); auto; lia. }
    intros _ _. eapply dec_iff; [|eapply dec_bind; [apply dec_ns, (cmp_dec rho one t (set_min_bits b 2) T B); auto; lia|intros d _; apply dec_ret]].
    - rewrite VB, HV. split; [intros [K _]; lia|]. intros K. split; [lia|exact I].
    - cbn [set_min_bits with_params value]. rewrite (is_bn_value _ _ _ _ Ib eq_refl), WB. change (2 ^ Z.of_nat 64) with (2 ^ 64). fold (int64 B). now rewrite VB. }
  exists x, s'. split; [exact K1|]. split; [|exact K3]. exact (K2 _ (agree_asg s')).
Qed.
End Composite.

(** 2^67 - 1 has a factor of one limb; the modulus of the scalar field of Pallas has no proper divisor. *)
Lemma composite_witness : let E := pallas_f64 log2_down true in
  let two x nx y ny := let! a := alloc_from_nat (Ok x) 64 nx in let! b := alloc_from_nat (Ok y) 64 ny in Ret (a, b) in
  (exists c t s x s', run true (two (2 ^ 67 - 1) 2%nat (2 ^ 67 - 2) 2%nat) st_init = (Ok (c, t), s) /\ good s /\
     run true (proper_divisor (Ok 193707721) 1 c t) s = (Ok x, s') /\ good s' /\ value x = Some 193707721 /\
     completed s (asg s) s' (fun rho => wires rho (limbs x) = [761838257287]) /\ ~ completed s (asg s) s' (fun rho => wires rho (limbs x) = [1])) /\
  (exists c t s x s', run true (two pallas_scalar_modulus 4%nat (pallas_scalar_modulus - 1) 4%nat) st_init = (Ok (c, t), s) /\ good s /\
     run true (proper_divisor (Ok pallas_scalar_modulus) 4 c t) s = (Ok x, s') /\ ~ good s' /\ ~ completed s (asg s) s' (fun _ => True)).
Proof.
  intros E two. pose proof (proj1 (usual_pallas log2_down true log2_down_faithful)) as HU. pose proof (wf_pallas_f64 log2_down true) as W. fold E in HU, W. split.
  - destruct (wide_two HU (2 ^ 67 - 1) 2 (2 ^ 67 - 2) 2) as (c & t & C & T & s & R & G & NC & NT & LC & LT & VC & VT); try lia.
    assert (HV : int64 T = int64 C - 1) by (rewrite VC, VT; reflexivity).
    destruct (divisor_honest HU 193707721 1 c t C T s G NC NT HV ltac:(lia) ltac:(lia) ltac:(reflexivity) ltac:(rewrite VC; lia)) as (x & s' & H1 & H2 & H3).
    { rewrite VC. exists 761838257287. reflexivity. }
    pose proof (fun B => divisor_exact HU true _ 1 c t C T B s (asg s) x s' (good_good_for s G) (at_num64 _ _ _ NC) (at_num64 _ _ _ NT) HV ltac:(lia) ltac:(lia) H1) as K. rewrite VC in K.
    exists c, t, s, x, s'. split; [exact R|]. split; [exact G|]. split; [exact H1|]. split; [exact H2|]. split; [exact H3|]. split.
    + apply K. change (int64 [761838257287]) with 761838257287. split; [reflexivity|]. split; [repeat constructor; lia|]. split; [lia|]. exists 193707721. reflexivity.
    + intros N. apply K in N. destruct N as (_ & _ & N & _). change (int64 [1]) with 1 in N. lia.
  - assert (HM : 1 < pallas_scalar_modulus < 2 ^ 256) by (split; reflexivity).
    destruct (wide_two HU pallas_scalar_modulus 4 (pallas_scalar_modulus - 1) 4) as (c & t & C & T & s & R & G & NC & NT & LC & LT & VC & VT); try lia.
    assert (HV : int64 T = int64 C - 1) by (rewrite VC, VT; reflexivity).
    destruct (divisor_verdict HU pallas_scalar_modulus 4 c t C T s G NC NT HV ltac:(lia) ltac:(lia) ltac:(lia) ltac:(rewrite VC; lia)) as (x & s' & H1 & H2 & H3).
    { rewrite VC. apply Z.divide_refl. }
    exists c, t, s, x, s'. split; [exact R|]. split; [exact G|]. split; [exact H1|]. split; [rewrite H3, VC; lia|].
    rewrite (divisor_composite HU true _ 4 c t C T s (asg s) x s' (good_good_for s G) (at_num64 _ _ _ NC) (at_num64 _ _ _ NT) HV ltac:(rewrite VC; lia) ltac:(lia) ltac:(lia) H1), VC.
    intros N. exact (N prime_pallas_scalar_modulus).
Qed.
