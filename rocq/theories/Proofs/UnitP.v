(** The unit tests, run on arbitrary inputs (C84). *)
From Coq Require Import ZArith Bool String List Permutation Lia ZifyBool ZifyNat.
From Verif.Model Require Import Base CS TestCS Bellpepper Util Poly Bignat Ints Median Difficulty RepoTests UnitTests Fields F64.
From Verif.Spec Require Import Spec SpecHeader SpecNames SpecF64.
From Verif.Proofs Require Import Field Convert Wp BitNum BignatEq TopBits TopBignat1 TopBignat2 TopMedian MedianP MedianV Regroup TopDifficulty HashP HeaderP NamesG DecP TestsP Carry PrimeFields TopF64 TestsFr.
Import ListNotations.
Local Open Scope string_scope.
Local Open Scope Z_scope.
Local Open Scope list_scope.

Section Unit.
Context {E : Env}.

Hint Resolve n_an_alloc n_num_alloc n_fits n_equals n_less_than n_leq n_verify_median n_verify_difficulty n_calculate n_verify_hash n_check_prev : nm.
Lemma n_median ts : tidy (test_median_verify ts).
Proof. unfold test_median_verify, bool_u. td. Qed.
Lemma n_test_equals x y : tidy (test_equals x y).
Proof. unfold test_equals, test_two, bool_u, an_u. td. Qed.
Lemma n_test_less_than x y n : tidy (test_less_than x y n).
Proof. unfold test_less_than, test_two, bool_u, an_u. td. Qed.
Lemma n_test_leq x y n : tidy (test_less_than_equal x y n).
Proof. unfold test_less_than_equal, test_two, bool_u, an_u. td. Qed.
Lemma n_test_fits v n : tidy (test_fits_in_bits v n).
Proof. unfold test_fits_in_bits, num_u. td. Qed.
Lemma n_test_difficulty a b c d e : tidy (test_difficulty a b c d e).
Proof. unfold test_difficulty. td. Qed.
Lemma n_test_calc a b c d e : tidy (test_calc_new_target a b c d e).
Proof. unfold test_calc_new_target, an_u. td. Qed.
Lemma n_test_hash a b c d : tidy (test_hash_target a b c d).
Proof. unfold test_hash_target, bool_u. td. Qed.
Lemma n_test_prev a b : tidy (test_hash_previous a b).
Proof. unfold test_hash_previous. td. Qed.

Lemma value_run {A} (m : prog A) : well_named m -> test_value m = fst (run true m st_init).
Proof. intros H. unfold test_value. now rewrite (proj1 (H true st_init fresh_init)). Qed.
Lemma satisfied_run {A} (m : prog A) : well_named m -> test_satisfied m =
  match run true m st_init with (Panic, _) => Panic | (_, s) => Ok (satb (asg s) s) end.
Proof. intros H. unfold test_satisfied. now rewrite (proj1 (H true st_init fresh_init)). Qed.

Lemma bool_u_run nm (m : prog Boolean) s r s' b : run true m (push_ns (Nm nm) s) = (Ok r, s') -> bool_val r = Some b ->
  fst (run true (bool_u nm m) s) = Ok b.
Proof.
  intros H Hb. unfold bool_u. rewrite (run_bind_ok _ _ _ _ _ _ (run_unwrap_ns _ _ _ _ _ _ H)), Hb. reflexivity.
Qed.
End Unit.

Lemma filter_perm (f : Z -> bool) l l' : Permutation l l' -> List.length (filter f l) = List.length (filter f l').
Proof. induction 1; cbn; repeat match goal with |- context [if ?b then _ else _] => destruct b end; cbn; congruence. Qed.

Section UnitW.
Context {E : Env} {W : Wf E}.

Lemma an_u_run nm v s : good s -> canon v -> exists a s', run true (an_u nm (Ok v)) s = (Ok a, s') /\ good s' /\ an_at s' a v /\
  (forall b y, an_at s b y -> an_at s' b y).
Proof.
  intros G Cv. destruct (hwp_run (an_u nm (Ok v)) s (fun rho r => is_an rho r v) G) as (a & s' & H1 & H2 & H3 & H4).
  { intros rho _ one. unfold an_u. apply hwp_unwrap, hwp_ns. eapply an_alloc_hwp; [reflexivity|]. intros x Hx. apply is_an_mk; auto. }
  exists a, s'. split; auto. split; auto. split.
  - eapply is_an_at; eauto.
  - intros b y (B1 & B2 & B3). split; auto. split; auto. intros rho Ha. apply B3. auto.
Qed.

Lemma two_run nm f x y b : (forall c d s, good s -> an_at s c (fmk x) -> an_at s d (fmk y) ->
    exists r s', run true (f c d) s = (Ok r, s') /\ good s' /\ boolean_at s' r b) ->
  fst (run true (test_two nm f x y) st_init) = Ok b.
Proof.
  intros H. unfold test_two.
  destruct (an_u_run "c" (from_u64 x) st_init good_init (fmk_canon x)) as (c & s1 & R1 & G1 & A1 & _).
  rewrite (run_bind_ok _ _ _ _ _ _ R1).
  destruct (an_u_run "d" (from_u64 y) s1 G1 (fmk_canon y)) as (d & s2 & R2 & G2 & A2 & K2).
  rewrite (run_bind_ok _ _ _ _ _ _ R2). apply K2 in A1.
  destruct (H c d (push_ns (Nm nm) s2) G2 A1 A2) as (r & s3 & R3 & _ & B3 & _).
  eapply bool_u_run; eauto.
Qed.

Lemma top_test_equals x y : test_value (test_equals x y) = Ok (x mod modulus =? y mod modulus).
Proof.
  rewrite value_run by apply tidy_well_named, n_test_equals. apply two_run. intros c d s G A B. apply (top_equals_complete c d _ _ s G A B).
Qed.
Lemma top_test_less_than x y n : (n <= 126)%nat -> 2 ^ (Z.of_nat n + 2) < modulus ->
  0 <= x < 2 ^ (Z.of_nat n + 1) -> 0 <= y < 2 ^ (Z.of_nat n + 1) -> test_value (test_less_than x y n) = Ok (x <? y).
Proof.
  intros Hn HP Hx Hy. rewrite value_run by apply tidy_well_named, n_test_less_than.
  assert (HQ : 2 ^ (Z.of_nat n + 2) = 2 * 2 ^ (Z.of_nat n + 1)) by (rewrite <- Z.pow_succ_r by lia; f_equal; lia).
  apply two_run. intros c d s G A B. rewrite fmk_id in A, B by (split; lia). apply top_less_than_low; auto; lia.
Qed.
Lemma top_test_leq x y n : (n <= 126)%nat -> 2 ^ (Z.of_nat n + 2) < modulus ->
  0 <= x < 2 ^ (Z.of_nat n + 1) -> 0 <= y < 2 ^ (Z.of_nat n + 1) -> test_value (test_less_than_equal x y n) = Ok (x <=? y).
Proof.
  intros Hn HP Hx Hy. rewrite value_run by apply tidy_well_named, n_test_leq.
  assert (HQ : 2 ^ (Z.of_nat n + 2) = 2 * 2 ^ (Z.of_nat n + 1)) by (rewrite <- Z.pow_succ_r by lia; f_equal; lia).
  apply two_run. intros c d s G A B. rewrite fmk_id in A, B by (split; lia). apply top_leq_low; auto; lia.
Qed.

Lemma top_test_median ts : ts <> [] -> (List.length ts <= 23)%nat -> Forall (fun t => 0 <= t < 2 ^ 32) ts -> 2 ^ 34 < modulus ->
  test_value (test_median_verify ts) = Ok true.
Proof.
  intros Hne HL HR HP. rewrite value_run by apply tidy_well_named, n_median. unfold test_median_verify.
  destruct (top_median_ok ts Hne) as (m & l & Hc & Hp & Hs & _ & _ & Hn). rewrite Hc. cbn [lift bind].
  assert (Hc2 : exists l2, compute_median_timestamp l = Ok (m, l2)).
  { assert (Hl : l <> []) by (intros ->; apply Permutation_sym, Permutation_nil in Hp; auto).
    destruct (top_median_ok l Hl) as (m2 & l2 & Hc2 & _). exists l2. rewrite Hc2. do 2 f_equal. symmetry.
    apply (top_median_unique l m2 l2 m Hc2); rewrite <- (filter_perm _ _ _ Hp), <- (Permutation_length Hp); apply Hn. }
  destruct Hc2 as [l2 Hc2].
  destruct (top_median_accepts l m l2 (push_ns (Nm "verify median") st_init) good_init HP) as (r & s' & H1 & H2 & H3 & _); auto.
  - eapply Permutation_Forall; eauto.
  - now rewrite <- (Permutation_length Hp).
  - eapply bool_u_run; eauto.
Qed.

Lemma top_test_fits v n : 0 <= v -> (1 <= n <= NUM_BITS)%nat ->
  test_satisfied (test_fits_in_bits v n) = Ok (v mod modulus <? 2 ^ Z.of_nat n).
Proof.
  intros Hv Hn. rewrite satisfied_run by apply tidy_well_named, n_test_fits.
  assert (H : verdict (test_fits_in_bits v n) = Ok (v mod modulus <? 2 ^ Z.of_nat n)).
  { apply (dec_verdict _ (fmk v < 2 ^ Z.of_nat (width1 n))).
    - apply tidy_well_named, n_test_fits.
    - intros rho one. unfold test_fits_in_bits, num_u. eapply dec_step; [apply hwp_unwrap, hwp_ns|].
      + eapply hwp_mono; [rewrite <- (nat_to_f_unwrap v Hv : _ = Ok (from_u64 v)); apply (alloc_num_hwp rho v Hv)|]. intros x Hx. exact Hx.
      + intros x Hx. apply dec_ns, fits_dec; eauto. lia.
    - fold (fmk v). rewrite Z.ltb_lt. replace (width1 n) with n by (unfold width1; lia). tauto. }
  rewrite verdict_run in H by apply tidy_well_named, n_test_fits. destruct (run _ _ _) as [[| |] s]; congruence.
Qed.

Lemma satb_iff s (P : Prop) b : (sat (asg s) s <-> P) -> (P <-> b = true) -> satb (asg s) s = b.
Proof.
  intros H1 H2. destruct (satb (asg s) s) eqn:Es, b; auto; exfalso.
  - apply satb_sat in Es. apply H1, H2 in Es. discriminate.
  - rewrite sat_satb in Es; [discriminate|]. apply H1, H2. reflexivity.
Qed.

Lemma top_test_difficulty cu cl pu pl t :
  0 <= cu < 2 ^ 128 -> 0 <= cl < 2 ^ 128 -> 0 <= pu < 2 ^ 128 -> 0 <= pl < 2 ^ 128 -> 302400 < t < 4838400 ->
  (194 <= CAPACITY <= 255)%nat -> exact_carries ((2 ^ 64 - 1) * (2 ^ 65 - 1)) 64 ->
  test_satisfied (test_difficulty cu cl pu pl t) =
    Ok (cu * 2 ^ 128 + cl =? (pu * 2 ^ 128 + pl) * t / (2016 * 10 * 60)).
Proof.
  intros R1 R2 R3 R4 Rt HC HX. rewrite satisfied_run by apply tidy_well_named, n_test_difficulty.
  destruct (top_verify_iff cu cl pu pl t (push_ns (Nm "trivial") st_init) good_init R1 R2 R3 R4 Rt HC HX) as (s' & Hr & Hi).
  unfold test_difficulty. cbn [ns run]. rewrite (run_bind_ok _ _ _ _ _ _ Hr). cbn [run]. f_equal.
  apply (satb_iff (pop_ns s') _ _ Hi). symmetry. apply Z.eqb_eq.
Qed.

Lemma top_test_hash hu hl tu tl :
  0 <= hu < 2 ^ 128 -> 0 <= hl < 2 ^ 128 -> 0 <= tu < 2 ^ 128 -> 0 <= tl < 2 ^ 128 -> 2 ^ 130 < modulus ->
  tu - hu <= 2 ^ 127 -> (hu = tu -> tl - hl <= 2 ^ 127) ->
  test_value (test_hash_target hu hl tu tl) = Ok (hu * 2 ^ 128 + hl <? tu * 2 ^ 128 + tl).
Proof.
  intros R1 R2 R3 R4 HP H1 H2. rewrite value_run by apply tidy_well_named, n_test_hash.
  destruct (top_hash_near hu hl tu tl (push_ns (Nm "trivial") st_init) good_init R1 R2 R3 R4 HP H1 H2) as (r & s' & Hr & _ & Hb & _).
  eapply bool_u_run; eauto.
Qed.

Lemma top_test_prev blk hsh : test_satisfied (test_hash_previous blk hsh) = Ok true <->
  firstn 256 (words_bits hsh) = firstn (64 * List.length hsh) (sha256d (words_bits blk)).
Proof.
  rewrite satisfied_run by apply tidy_well_named, n_test_prev.
  destruct (top_prev_hash_iff blk hsh (push_ns (Nm "prev_hash") st_init) good_init) as (s' & Hr & Hi).
  unfold test_hash_previous. cbn [ns run]. rewrite (run_bind_ok _ _ _ _ _ _ Hr). cbn [run].
  rewrite <- Hi. split.
  - intros H. injection H as H. apply satb_sat in H. exact H.
  - intros H. f_equal. apply sat_satb. exact H.
Qed.

Lemma top_test_calc pu pl t tu tl : let T := pu * 2 ^ 128 + pl in
  0 <= pu < 2 ^ 127 -> 0 <= pl < 2 ^ 128 -> 0 <= tu < 2 ^ 127 -> 0 <= tl < 2 ^ 128 -> T < modulus ->
  302400 < t < 4838400 -> T * t / (2016 * 10 * 60) < 2 ^ 256 -> (194 <= CAPACITY <= 255)%nat -> exact_carries ((2 ^ 64 - 1) * 2 ^ 128) 64 ->
  test_value (test_calc_new_target pu pl t tu tl) = Ok (digits (2 ^ 64) (T * t / (2016 * 10 * 60))).
Proof.
  intros T R1 R2 R3 R4 HT Rt HS HC HX. rewrite value_run by apply tidy_well_named, n_test_calc. unfold test_calc_new_target.
  assert (HH : forall u l, 0 <= u < 2 ^ 127 -> 0 <= l < 2 ^ 128 -> halves_to_f u l = Ok (fmk (u * 2 ^ 128 + l))).
  { intros u l Hu Hl. unfold halves_to_f, checked, two_to.
    change (2 ^ 128) with (2 * 2 ^ 127) in *. set (K := 2 ^ 127) in *.
    replace ((0 <=? u * 2) && (u * 2 <? 2 * K))%bool with true by lia. cbn [rbind].
    f_equal. unfold Base.fadd, Base.fmul, from_u128, fmk. rewrite <- Zmult_mod, <- Zplus_mod. f_equal. lia. }
  rewrite !HH by auto. fold T.
  assert (CT : canon T) by (split; auto; unfold T; lia). rewrite (fmk_id T CT).
  destruct (an_u_run "780k block target" T st_init good_init CT) as (p & s1 & Q1 & G1 & A1 & _).
  rewrite (run_bind_ok _ _ _ _ _ _ Q1).
  assert (Ct : canon t). { split; [lia|]. pose proof CAPACITY_pow. pose proof (Z.pow_le_mono_r 2 (Z.of_nat 194) (Z.of_nat CAPACITY) eq_refl (inj_le _ _ (proj1 HC))). eapply Z.lt_le_trans; [|eassumption]. eapply Z.lt_le_trans; [|eassumption]. apply Z.lt_trans with 4838400; [lia|reflexivity]. }
  unfold from_u64. rewrite (fmk_id t Ct).
  destruct (an_u_run "sum of timestamps" t s1 G1 Ct) as (ts & s2 & Q2 & G2 & A2 & K2).
  rewrite (run_bind_ok _ _ _ _ _ _ Q2). apply K2 in A1.
  destruct (an_u_run "800k block target" _ s2 G2 (fmk_canon (tu * 2 ^ 128 + tl))) as (x & s3 & Q3 & G3 & _ & K3).
  rewrite (run_bind_ok _ _ _ _ _ _ Q3). apply K3 in A1, A2.
  destruct (top_calculate p ts T t (push_ns (Nm "calculates difficulty") s3) G3 A1 A2 Rt HS HC HX) as (b & s4 & vs & Q4 & _ & _ & _ & _ & V).
  rewrite (run_bind_ok _ _ _ _ _ _ (run_unwrap_ns _ _ _ _ _ _ Q4)), V. reflexivity.
Qed.
End UnitW.

Section Fr.
Context (l : f64 -> f64) (ck : bool) (HL : faithful_log2 l).
Let E : Env := fr_f64 l ck.
Local Existing Instance E.
Let W : Wf E := wf_fr_f64 l ck.
Local Existing Instance W.

Lemma fr_big n : (n <= 254)%nat -> 2 ^ Z.of_nat n < modulus.
Proof.
  intros H. apply Z.le_lt_trans with (2 ^ 254); [apply Z.pow_le_mono_r; lia|reflexivity].
Qed.

Lemma top_unit_tests :
  (test_nat_to_f 4 "4" = Ok true /\ test_f_to_nat 4 "4" = Ok true /\ test_usize_to_f 4 "4" = Ok true /\ test_f_to_usize 4 "4" = Ok true) /\
  (test_median_compute [11; 2; 3; 4; 7; 5; 8; 6; 10; 9; 1] = Ok 6 /\
   test_value (test_median_verify [11; 2; 3; 4; 6; 6; 8; 6; 10; 9; 1]) = Ok true /\
   test_value (test_equals 4 4) = Ok true /\
   test_satisfied (test_fits_in_bits (Z.shiftl 2 30) 32) = Ok true /\
   test_value (test_less_than 11 14 32) = Ok true /\
   test_value (test_less_than_equal 11 14 32) = Ok true) /\
  (test_satisfied (test_difficulty (Z.shiftl 2 97) (Z.shiftl 2 97) (Z.shiftl 2 96) (Z.shiftl 2 96) (2016 * 10 * 60 * 2)) = Ok true /\
   test_satisfied (test_difficulty 0 0x053894 0 0x058ebe (13 * 24 * 3600 + 3 * 3600 + 39 * 60 + 6)) = Ok true /\
   test_value (test_calc_new_target 0x05 0x8ebe0000000000000000000000000000 (13 * 24 * 3600 + 3 * 3600 + 39 * 60 + 6)
     0x05 0x38940000000000000000000000000000) = Ok [0x04B6B1D1837E9E50; 0x3894871D1837E9E5; 5]) /\
  (test_value (test_hash_target 0x000000004ebadb55ee9096c9a2f8880e 0x09da59c0d68b1c228da88e48844a1485
     0x00ffff00000000000000000000 0x00) = Ok true /\
   test_satisfied (test_hash_previous
     [0x010000009500c43a; 0x25c624520b5100ad; 0xf82cb9f9da72fd24; 0x47a496bc600b0000; 0x000000006cd86237;
      0x0395dedf1da2841c; 0xcda0fc489e3039de; 0x5f1ccddef0e83499; 0x1a65600ea6c8cb4d; 0xb3936a1ae3143991]
     [0xcac383cdf62f68ef; 0xaa8064e35f6fc4df; 0xc8aa74610c6580ed; 0x1729000000000000]) = Ok true).
Proof.
  assert (HC : (194 <= CAPACITY <= 255)%nat) by (rewrite (cap_fr_f64 l ck : @CAPACITY E = 254%nat); lia).
  destruct (top_f64_header (E := E) (f64_carries_fr l ck HL) (cap_500 l ck) (proj1 HC)) as [X1 X2].
  assert (M34 : 2 ^ 34 < modulus) by reflexivity. assert (M130 : 2 ^ 130 < modulus) by reflexivity.
  split; [|split; [|split]].
  - repeat match goal with |- _ /\ _ => split end; vm_compute; reflexivity.
  - split; [vm_compute; reflexivity|]. split; [|split; [|split; [|split]]].
    + apply (top_test_median (E := E)); [discriminate|cbn; lia|repeat constructor; lia|exact M34].
    + rewrite (top_test_equals (E := E)). reflexivity.
    + rewrite (top_test_fits (E := E)); [vm_compute; reflexivity|vm_compute; discriminate|rewrite (bits_fr_f64 l ck : @NUM_BITS E = 255%nat); lia].
    + rewrite (top_test_less_than (E := E)); [reflexivity|lia|reflexivity|split; [lia|reflexivity]..].
    + rewrite (top_test_leq (E := E)); [reflexivity|lia|reflexivity|split; [lia|reflexivity]..].
  - split; [|split].
    + rewrite (top_test_difficulty (E := E)); auto; try (vm_compute; split; reflexivity || discriminate).
    + rewrite (top_test_difficulty (E := E)); auto; try (vm_compute; split; reflexivity || discriminate).
    + rewrite (top_test_calc (E := E)); auto; try (vm_compute; reflexivity); try (vm_compute; split; reflexivity || discriminate).
  - split.
    + rewrite (top_test_hash (E := E)); auto; try (vm_compute; split; reflexivity || discriminate).
      all: try (vm_compute; discriminate). all: intros H; discriminate H.
    + apply (top_test_prev (E := E)). vm_compute. reflexivity.
Qed.
End Fr.
