(** The exact verdict of the target update stage (C86). *)
From Coq Require Import ZArith Znumtheory Bool String List Lia Setoid Morphisms ZifyBool ZifyNat.
From Verif.Model Require Import Base Sha256 CS Bellpepper Util Poly Bignat Ints Median Difficulty HeaderStep Fields F64.
From Verif.Spec Require Import Spec SpecHeader SpecExact SpecF64.
From Verif.Proofs Require Import Field Arith Convert Limbs Wp Lc BitNum PolyP BoolP BignatEq BignatAlloc Group Carry Regroup TopBits
  Mult MultC PureOps TopBignat1 TopBignat2 Owp Shp Room TopBignat3 TopBignat4 Pwp PrimeFields MedianP MedianV TopMedian DifficultyP DifficultyV
  TopDifficulty MedianEx DifficultyEx HeaderP HeaderW Total DecP ExactP TopExact DiffExact F64P TopF64 TestsFr.
Import ListNotations.
Local Open Scope string_scope.
Local Open Scope Z_scope.
Local Open Scope list_scope.

Section HeaderExact.
Context {E : Env} {W : Wf E}.

Lemma dec_enforce rho nm a b c P : (csat rho (R1 a b c) <-> P) -> dec rho (enforce nm a b c) P (fun _ => True).
Proof.
  intros HP. split; [|split].
  - now apply twp_enforce.
  - cbn. tauto.
  - intros H. cbn. tauto.
Qed.

Lemma eqp_canon_iff x y u v : eqp x u -> eqp y v -> canon u -> canon v -> (eqp (x - y) 0 <-> u = v).
Proof.
  intros Hx Hy Cu Cv. rewrite eqp_sub_0, Hx, Hy. split; [intros H; apply (eqp_small _ _ H); auto|intros ->; reflexivity].
Qed.

Lemma update_dec rho b target z z12 z13 z14 T T12 t c v : rho ONE = 1 ->
  nth_error z 12 = Some z12 -> nth_error z 13 = Some z13 -> nth_error z 14 = Some z14 ->
  is_an rho target T -> is_an rho z12 T12 -> is_an rho z13 t -> is_an rho z14 c ->
  302400 < t < 4838400 -> (194 <= CAPACITY <= 255)%nat -> exact_carries calc_word 64 ->
  calculated_closure (qb0 b) (digits (2 ^ 64) (T12 * t / two_weeks)) = Ok v -> canon v ->
  dec rho (stage_target_update b target z) (T12 * t / two_weeks < 2 ^ 256 /\ if c =? 0 then T = v else T = T12)
    (fun p => is_an rho (snd (fst p)) v /\ snd p = z13).
Proof.
  intros one H12 H13 H14 IT I12 I13 I14 Rt HC HX HV Cv.
  destruct (dval_ok c (proj1 (proj2 I14))) as (D1 & D2 & D3).
  assert (E14 := proj2 (proj2 I14)). assert (E12 := proj2 (proj2 I12)). assert (ET := proj2 (proj2 IT)).
  assert (C14 := proj1 (proj2 I14)). assert (C12 := proj1 (proj2 I12)). assert (CT := proj1 (proj2 IT)).
  assert (N0 : eqp c 0 <-> c = 0) by (split; [intros H; apply (eqp_small _ _ H); auto; apply canon_0|intros ->; reflexivity]).
  unfold stage_target_update. unfold idx. rewrite H12, H13, H14. cbn [unwrap lift bind].
  eapply dec_iff; [|eapply dec_bind; [apply (dec_enforce rho _ _ _ _ (T = T12 \/ c = 0))|intros _ _; eapply dec_bind; [apply dec_unwrap, dec_ns, (calc_dec rho one z12 z13 T12 t HC HX I12 I13 Rt)|]]].
  - instantiate (1 := c <> 0 \/ T = v). destruct (Z.eqb_spec c 0); intuition.
  - rewrite csat_R1. lcs. rewrite eqp_0_mul, (eqp_canon_iff _ _ _ _ ET E12 CT C12), E14, N0. reflexivity.
  - cbv beta zeta. intros tc (K1 & K2 & K3 & K4).
    assert (VQ : value tc = Some (T12 * t / two_weeks)).
    { rewrite (is_bn_value _ _ _ _ K1 eq_refl), K3. cbn [params_new limb_width]. rewrite K4. reflexivity. }
    rewrite VQ. cbn [unwrap lift bind]. eapply dec_step; [apply an_u_ok; [exact HV|exact Cv]|]. intros ct Hct.
    rewrite (proj1 I14). cbn [unwrap rbind]. fold (dval c).
    eapply dec_step; [apply hwp_ns, (an_alloc_hwp rho _ _ (fun a => is_an rho a (delta_of c)) D1); intros x Hx; apply is_an_mk; auto|]. intros di Hdi.
    rewrite (proj1 Hdi). cbn [unwrap rbind].
    eapply dec_step; [apply hwp_ns, (an_alloc_hwp rho _ _ (fun a => eqp (rho (an_var a)) (c * delta_of c)) eq_refl)|].
    { intros x Hx. cbn [an_var]. rewrite Hx. unfold Base.fmul. apply eqp_fmk. }
    intros t1 Ht1. assert (Edi := proj2 (proj2 Hdi)).
    eapply dec_iff; [|eapply dec_bind; [apply (dec_enforce rho _ _ _ _ True)|intros _ _; eapply dec_bind; [apply (dec_enforce rho _ _ _ _ True)|
      intros _ _; eapply dec_bind; [apply (dec_enforce rho _ _ _ _ (c <> 0 \/ T = v))|intros _ _; apply dec_ret]]]].
    + tauto.
    + rewrite csat_R1. lcs. rewrite E14, Edi, Ht1. split; auto. intros _. ering.
    + rewrite csat_R1. lcs. rewrite E14, Ht1, one. split; auto. intros _. destruct D3 as [->|D3]; [ering|rewrite D3; ering].
    + rewrite csat_R1. lcs. rewrite eqp_0_mul, (eqp_canon_iff _ _ _ _ ET (proj2 (proj2 Hct)) CT Cv), Ht1, one.
      destruct D3 as [D3|D3].
      * subst c. split; [|intuition]. intros [H|H]; auto. exfalso. apply eqp_1_0. assert (M : eqp 1 (-1 * (0 * delta_of 0 - 1))) by ering. rewrite M, H. ering.
      * split; [|intros _; right; rewrite D3; ering]. intros _. left. intros ->. apply eqp_1_0. rewrite <- D3. ering.
    + cbn [fst snd]. auto.
Qed.

Lemma top_update_decides b target z s z12 z13 z14 T T12 t c v :
  good s -> nth_error z 12 = Some z12 -> nth_error z 13 = Some z13 -> nth_error z 14 = Some z14 ->
  an_at s target T -> an_at s z12 T12 -> an_at s z13 t -> an_at s z14 c ->
  302400 < t < 4838400 -> (194 <= CAPACITY <= 255)%nat -> exact_carries ((2 ^ 64 - 1) * 2 ^ 128) 64 ->
  calculated_closure (qb0 b) (digits (2 ^ 64) (T12 * t / (2016 * 10 * 60))) = Ok v ->
  exists tc ct s', run true (stage_target_update b target z) s = (Ok (tc, ct, z13), s') /\ an_at s' ct v /\
    (good s' <-> T12 * t / (2016 * 10 * 60) < 2 ^ 256 /\ if c =? 0 then T = v else T = T12).
Proof.
  intros G H12 H13 H14 AT A12 A13 A14 Rt HC HX HV. rewrite <- calc_word_eq in HX.
  assert (Cv : canon v).
  { unfold calculated_closure in HV. repeat match type of HV with rbind ?r _ = Ok _ => destruct r; cbn [rbind] in HV; try discriminate HV end.
    match type of HV with Ok ?a = _ => assert (e : a = v) by congruence end. subst v. apply fmk_canon. }
  destruct (dec_run (stage_target_update b target z) s (T12 * t / two_weeks < 2 ^ 256 /\ if c =? 0 then T = v else T = T12)
    (fun rho p => is_an rho (snd (fst p)) v /\ snd p = z13) G) as ([[tc ct] z0] & s' & Hr & HQ & Hg).
  { intros rho Hag one. apply (update_dec rho b target z z12 z13 z14 T T12 t c v one H12 H13 H14); auto; eapply an_at_is; eassumption. }
  destruct (HQ _ (agree_asg s')) as (_ & K2). cbn [fst snd] in *. subst z0.
  exists tc, ct, s'. split; [exact Hr|]. split; [|exact Hg].
  apply (is_an_at s'); auto. intros rho Ha. apply (HQ rho Ha).
Qed.
End HeaderExact.

(** ** The Pallas scalar field, with the carry widths of the code *)
Section PallasF64.
Context (l : f64 -> f64) (ck : bool) (HL : faithful_log2 l).
Let E : Env := pallas_f64 l ck.
Local Existing Instance E.
Let W : Wf E := wf_pallas_f64 l ck.
Local Existing Instance W.

Lemma pallas_f64_cap : (194 <= CAPACITY <= 255)%nat.
Proof. rewrite (cap_pallas_f64 l ck : @CAPACITY E = 254%nat). lia. Qed.
Lemma pallas_f64_words : exact_carries ((2 ^ 64 - 1) * 2 ^ 128) 64 /\ exact_carries ((2 ^ 64 - 1) * (2 ^ 65 - 1)) 64.
Proof.
  apply (top_f64_header (E := E)); [apply f64_carries_pallas; exact HL| |]; rewrite (cap_pallas_f64 l ck : @CAPACITY E = 254%nat); lia.
Qed.

Lemma pallas_quotient T t : canon T -> t < 4838400 -> T * t / (2016 * 10 * 60) < 2 ^ 256.
Proof.
  intros [T0 T1] Ht. apply Z.div_lt_upper_bound; [reflexivity|].
  assert (HM : modulus * 4838399 < 2016 * 10 * 60 * 2 ^ 256) by reflexivity.
  assert (T * t <= T * 4838399) by (apply Z.mul_le_mono_nonneg_l; lia).
  assert (T * 4838399 <= modulus * 4838399) by (apply Z.mul_le_mono_nonneg_r; lia). lia.
Qed.

Lemma top_calculate_pallas prev ts T t s :
  good s -> an_at s prev T -> an_at s ts t -> 302400 < t < 4838400 ->
  exists b s' vs, run true (calculate_difficulty_update prev ts) s = (Ok b, s') /\ good s' /\ bignat_at s' b vs /\
    limb_width (bparams b) = 64%nat /\ List.length (limbs b) = 5%nat /\ value b = Some (T * t / (2016 * 10 * 60)).
Proof.
  intros G HT Ht Rt. apply (top_calculate (E := E) (W := W) prev ts T t s G HT Ht Rt);
    [apply pallas_quotient; [apply HT|lia]|exact pallas_f64_cap|apply pallas_f64_words].
Qed.

Lemma top_verify_pallas cu cl pu pl t s :
  good s -> 0 <= cu < 2 ^ 128 -> 0 <= cl < 2 ^ 128 -> 0 <= pu < 2 ^ 128 -> 0 <= pl < 2 ^ 128 -> 302400 < t < 4838400 ->
  exists s', run true (verify_difficulty_update cu cl pu pl t) s = (Ok tt, s') /\
    (sat (asg s') s' <-> cu * 2 ^ 128 + cl = (pu * 2 ^ 128 + pl) * t / (2016 * 10 * 60)).
Proof.
  intros. apply (top_verify_iff (E := E) (W := W)); auto; [exact pallas_f64_cap|apply pallas_f64_words].
Qed.

Lemma top_update_pallas b target z s z12 z13 z14 T T12 t c v :
  good s -> nth_error z 12 = Some z12 -> nth_error z 13 = Some z13 -> nth_error z 14 = Some z14 ->
  an_at s target T -> an_at s z12 T12 -> an_at s z13 t -> an_at s z14 c -> 302400 < t < 4838400 ->
  calculated_closure (qb0 b) (digits (2 ^ 64) (T12 * t / (2016 * 10 * 60))) = Ok v ->
  exists tc ct s', run true (stage_target_update b target z) s = (Ok (tc, ct, z13), s') /\ an_at s' ct v /\
    (good s' <-> if c =? 0 then T = v else T = T12).
Proof.
  intros G H12 H13 H14 AT A12 A13 A14 Rt HV.
  destruct (top_update_decides (E := E) (W := W) b target z s z12 z13 z14 T T12 t c v) as (tc & ct & s' & K1 & K2 & K3); auto;
    [exact pallas_f64_cap|apply pallas_f64_words|].
  exists tc, ct, s'. split; [exact K1|]. split; [exact K2|]. rewrite K3.
  assert (T12 * t / (2016 * 10 * 60) < 2 ^ 256) by (apply pallas_quotient; [apply A12|lia]). tauto.
Qed.
End PallasF64.

(** ** The field of src/util/scalar.rs: the top of the range overflows *)
Section FrF64.
Context (l : f64 -> f64) (ck : bool) (HL : faithful_log2 l).
Let E : Env := fr_f64 l ck.
Local Existing Instance E.
Let W : Wf E := wf_fr_f64 l ck.
Local Existing Instance W.

Lemma fr_f64_cap : (194 <= CAPACITY <= 255)%nat.
Proof. rewrite (cap_fr_f64 l ck : @CAPACITY E = 254%nat). lia. Qed.
Lemma fr_f64_words : exact_carries ((2 ^ 64 - 1) * 2 ^ 128) 64 /\ exact_carries ((2 ^ 64 - 1) * (2 ^ 65 - 1)) 64.
Proof.
  apply (top_f64_header (E := E)); [apply f64_carries_fr; exact HL| |]; rewrite (cap_fr_f64 l ck : @CAPACITY E = 254%nat); lia.
Qed.
Lemma top_calculate_fr prev ts T t s :
  good s -> an_at s prev T -> an_at s ts t -> 302400 < t < 4838400 ->
  exists b s' vs, run true (calculate_difficulty_update prev ts) s = (Ok b, s') /\ bignat_at s' b vs /\
    limb_width (bparams b) = 64%nat /\ List.length (limbs b) = 5%nat /\ value b = Some (T * t / (2016 * 10 * 60)) /\
    (good s' <-> T * t / (2016 * 10 * 60) < 2 ^ 256).
Proof.
  intros G HT Ht Rt. apply (top_calculate_decides (E := E) (W := W) prev ts T t s G HT Ht Rt); [exact fr_f64_cap|apply fr_f64_words].
Qed.
End FrF64.

(** ** Instances *)
Lemma C86_fr_witness : let E := fr_f64 log2_down true in
  exists b s', run true (
     let! target := an_alloc (Ok (fr_modulus - 1)) in
     let! span := an_alloc (Ok 4838399) in
     calculate_difficulty_update target span) st_init = (Ok b, s') /\ value b = Some ((fr_modulus - 1) * 4838399 / 1209600) /\ ~ good s'.
Proof.
  intros E. pose proof (wf_fr_f64 log2_down true) as W. fold E in W.
  apply (@with_two E W _ (fr_modulus - 1) 4838399 (fun a b => calculate_difficulty_update a b)
    (fun r => exists b s', r = (Ok b, s') /\ value b = Some ((fr_modulus - 1) * 4838399 / 1209600) /\ ~ good s')).
  - split; [discriminate|reflexivity].
  - split; [discriminate|reflexivity].
  - intros a b s G Ha Hb.
    destruct (top_calculate_fr log2_down true log2_down_faithful a b (fr_modulus - 1) 4838399 s G Ha Hb) as (r & s' & vs & H1 & _ & _ & _ & H2 & H3); [lia|].
    exists r, s'. split; [exact H1|]. split; [exact H2|]. intros C. apply H3 in C. revert C. apply Z.le_ngt. discriminate.
Qed.

Lemma an_at_for {E : Env} s a x : an_at s a x -> carries_for (asg s) s (lc_var (an_var a)) x.
Proof.
  intros (_ & _ & H) rho Hs one. apply H; [|exact one].
  destruct Hs as [Q1 Q2], (agree_asg s) as [Q3 Q4]. split; intros n Hn; [rewrite Q1|rewrite Q2]; auto.
Qed.

Lemma C86_pallas_witness : let E := pallas_f64 log2_down true in
  exists b s', run true (
     let! target := an_alloc (Ok (pallas_scalar_modulus - 1)) in
     let! span := an_alloc (Ok 4838399) in
     calculate_difficulty_update target span) st_init = (Ok b, s') /\ good s' /\ value b = Some ((pallas_scalar_modulus - 1) * 4838399 / 1209600).
Proof.
  intros E. pose proof (wf_pallas_f64 log2_down true) as W. fold E in W.
  apply (@with_two E W _ (pallas_scalar_modulus - 1) 4838399 (fun a b => calculate_difficulty_update a b)
    (fun r => exists b s', r = (Ok b, s') /\ good s' /\ value b = Some ((pallas_scalar_modulus - 1) * 4838399 / 1209600))).
  - split; [discriminate|reflexivity].
  - split; [discriminate|reflexivity].
  - intros a b s G Ha Hb.
    destruct (top_calculate_pallas log2_down true log2_down_faithful a b (pallas_scalar_modulus - 1) 4838399 s G Ha Hb) as (r & s' & vs & H1 & H2 & _ & _ & _ & H3); [lia|].
    exists r, s'. split; [exact H1|]. split; [exact H2|]. exact H3.
Qed.

Lemma C86_prover_witness : let E := pallas_f64 log2_down true in
  (exists b s' rho, run true (
     let! target := an_alloc (Ok 1000) in
     let! span := an_alloc (Ok 1209600) in
     calculate_difficulty_update target span) st_init = (Ok b, s') /\ value b = Some 1000 /\ sat rho s' /\ int_of rho b = 2 ^ 300) /\
  (exists a b c s s', run true (
     let! target := an_alloc (Ok (2 ^ 200)) in
     let! span := an_alloc (Ok 1209600) in Ret (target, span)) st_init = (Ok (a, b), s) /\
     run true (calculate_difficulty_update a b) s = (Ok c, s') /\ forall rho, same_on s rho (asg s) -> sat rho s' -> int_of rho c <> 0).
Proof.
  intros E. pose proof (wf_pallas_f64 log2_down true) as W. fold E in W. split.
  - apply (@with_two E W _ 1000 1209600 (fun a b => calculate_difficulty_update a b)
      (fun r => exists b s' rho, r = (Ok b, s') /\ value b = Some 1000 /\ sat rho s' /\ int_of rho b = 2 ^ 300)).
    + split; [discriminate|reflexivity].
    + split; [discriminate|reflexivity].
    + intros a b s G Ha Hb.
      destruct (top_calculate_pallas log2_down true log2_down_faithful a b 1000 1209600 s G Ha Hb) as (r & s' & vs & H1 & _ & _ & _ & _ & H3); [lia|].
      destruct (@top_calculate_prover E W true a b 1000 1209600 (2 ^ 300) s r s' (asg s) (TopBignat3.good_good_for s G) (an_at_for _ _ _ Ha) (an_at_for _ _ _ Hb) H1
      (pallas_f64_cap log2_down true) (proj1 (pallas_f64_words log2_down true log2_down_faithful))) as [_ HP].
      destruct HP as (rho & _ & K2 & K3).
      { split; [reflexivity|]. split; [discriminate|]. exists 1000, 0, (1000 * 1209600).
        split; [reflexivity|]. split; [split; [discriminate|reflexivity]|]. split; [split; [discriminate|reflexivity]|]. split; [split; [discriminate|reflexivity]|].
        split; [reflexivity|]. right. split; reflexivity. }
      exists r, s', rho. split; [exact H1|]. split; [rewrite H3; reflexivity|]. split; [exact K2|exact K3].
  - destruct (@two_nums E W (2 ^ 200) 1209600) as (a & b & s & H1 & G & Ha & Hb); [split; [discriminate|reflexivity]|split; [discriminate|reflexivity]|].
    destruct (top_calculate_pallas log2_down true log2_down_faithful a b (2 ^ 200) 1209600 s G Ha Hb) as (r & s' & vs & H2 & _); [lia|].
    exists a, b, r, s, s'. split; [exact H1|]. split; [exact H2|]. intros rho Hso Hs H0.
    destruct (@top_calculate_prover E W true a b (2 ^ 200) 1209600 0 s r s' (asg s) (TopBignat3.good_good_for s G) (an_at_for _ _ _ Ha) (an_at_for _ _ _ Hb) H2
      (pallas_f64_cap log2_down true) (proj1 (pallas_f64_words log2_down true log2_down_faithful))) as [HP _].
    destruct HP as (_ & _ & T' & d & q & ET & RT & _ & Rq & EQ & _); [exists rho; auto|].
    assert (HM : T' mod modulus <= T') by (apply Z.mod_le; [lia|reflexivity]). rewrite ET in HM.
    rewrite Z.mul_0_l in EQ. lia.
Qed.
