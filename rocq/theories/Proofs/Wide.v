(** C104: 64-bit limbs over the fields in use. *)
From Coq Require Import ZArith Bool List Lia ZifyBool ZifyNat.
From Verif.Model Require Import Base CS Bellpepper Util Poly Bignat Fields F64.
From Verif.Spec Require Import Spec SpecF64 SpecExact SpecWide.
From Verif.Proofs Require Import PureOps Field Arith Wp Limbs Group Carry Regroup Mult MultC Owp TopBignat1 TopBignat2 TopBignat3 Room TopBignat4 PrimeFields TopPure F64P TopF64 ExactP TopExact DividesP Total TopTotal.
Import ListNotations.
Local Open Scope Z_scope.

Section Wide.
Context {E : Env} {W : Wf E} (HU : usual_field E).

Lemma caps : (236 <= CAPACITY <= 255)%nat.
Proof using HU. destruct HU as [_ H]. unfold CAPACITY. lia. Qed.
Lemma cap_pow k : 0 <= k <= 236 -> 2 ^ k <= 2 ^ Z.of_nat CAPACITY.
Proof using HU. intros H. pose proof caps. apply Z.pow_le_mono_r; lia. Qed.
Lemma cap_modulus : 2 ^ 236 < modulus.
Proof using HU W. pose proof CAPACITY_lt. pose proof (cap_pow 236 ltac:(lia)). lia. Qed.
Lemma carry_range M lo hi : 0 <= M < 2 ^ 1020 -> (lo <= Nat.pred (carry_bits_exact M 64))%nat -> (carry_bits_exact M 64 <= hi)%nat ->
  (lo <= carry_bits_f64 M 64 <= hi)%nat.
Proof using HU.
  intros HM H1 H2. destruct HU as [(l & Hl & ->) _]. pose proof (top_carry_bounds l Hl M 64 HM ltac:(reflexivity)). lia.
Qed.
Lemma size_two M : 2 ^ 127 < M <= 2 ^ 171 -> group_size M 64 = 2%nat.
Proof using HU.
  intros HM. pose proof caps as HC.
  assert (H1 : 128 < Z.log2_up (2 * M)) by (apply Z.log2_up_lt_pow2; [lia|]; change (2 ^ 128) with (2 * 2 ^ 127); lia).
  assert (H2 : Z.log2_up (2 * M) <= 172) by (apply Z.log2_up_le_pow2; [lia|]; change (2 ^ 172) with (2 * 2 ^ 171); lia).
  destruct (carry_range M 64 108) as [L U].
  - split; [lia|]. apply Z.le_lt_trans with (2 ^ 171); [lia|]. apply Z.pow_lt_mono_r; lia.
  - unfold carry_bits_exact. change (Z.of_nat 64) with 64. lia.
  - unfold carry_bits_exact. change (Z.of_nat 64) with 64. lia.
  - unfold group_size. symmetry. apply (Nat.div_unique _ _ _ (CAPACITY - carry_bits_f64 M 64 - 128)); lia.
Qed.
Lemma size_three : group_size (2 ^ 64 - 1) 64 = 3%nat.
Proof using HU.
  pose proof caps as HC. destruct (carry_range (2 ^ 64 - 1) 0 1) as [_ U].
  - split; [lia|]. apply Z.le_lt_trans with (2 ^ 64); [lia|]. apply Z.pow_lt_mono_r; lia.
  - lia.
  - vm_compute. lia.
  - unfold group_size. symmetry. apply (Nat.div_unique _ _ _ (CAPACITY - carry_bits_f64 (2 ^ 64 - 1) 64 - 192)); lia.
Qed.

Definition good_word (M : Z) : Prop := group_no_wrap M 64 /\ group_room M 64 /\ group_size M 64 = 2%nat.
Lemma pw_range n m : (1 <= n)%nat -> (1 <= m)%nat -> Z.of_nat (Nat.min n m) <= 2 ^ 41 ->
  2 ^ 127 < product_word n (2 ^ 64 - 1) m (2 ^ 64 - 1) <= 2 ^ 169.
Proof.
  intros Hn Hm H. unfold product_word. set (k := Z.of_nat (Nat.min n m)) in *. assert (1 <= k) by lia. clearbody k.
  change (2 ^ 127) with 170141183460469231731687303715884105728. rewrite <- Z.mul_assoc. change ((2 ^ 64 - 1) * (2 ^ 64 - 1)) with 340282366920938463426481119284349108225.
  split; [lia|]. apply Z.le_trans with (2 ^ 41 * 340282366920938463426481119284349108225); [lia|]. vm_compute. discriminate.
Qed.
Lemma word_product n m : (1 <= n)%nat -> (1 <= m)%nat -> Z.of_nat (Nat.min n m) <= 2 ^ 41 ->
  good_word (Z.max (product_word n (2 ^ 64 - 1) m (2 ^ 64 - 1)) (2 ^ 64 - 1)).
Proof using HU W.
  intros Hn Hm H. pose proof (pw_range n m Hn Hm H) as R. pose proof (cap_pow 236 ltac:(lia)) as HC. pose proof caps.
  destruct (top_f64_product (proj1 HU) ltac:(lia) 64 n m) as [H1 H2]; auto; try (change (2 ^ Z.of_nat 64) with (2 ^ 64); lia).
  split; [exact H1|]. split; [exact H2|]. apply size_two. lia.
Qed.
Lemma word_mods n m q l : (1 <= n)%nat -> (1 <= m)%nat -> (1 <= q)%nat -> (1 <= l)%nat -> Z.of_nat (Nat.max (Nat.min n m) (Nat.min q l)) <= 2 ^ 41 ->
  good_word (Z.max (product_word n (2 ^ 64 - 1) m (2 ^ 64 - 1)) (product_word q (2 ^ 64 - 1) l (2 ^ 64 - 1) + (2 ^ 64 - 1))).
Proof using HU W.
  intros Hn Hm Hq Hl H. pose proof (pw_range n m Hn Hm ltac:(lia)) as R. pose proof (pw_range q l Hq Hl ltac:(lia)) as R'. pose proof (cap_pow 236 ltac:(lia)) as HC. pose proof caps.
  destruct (top_f64_mod (proj1 HU) ltac:(lia) 64 n m q l) as [H1 H2]; auto; try (change (2 ^ Z.of_nat 64) with (2 ^ 64); lia).
  split; [exact H1|]. split; [exact H2|]. apply size_two. lia.
Qed.
Lemma word_reds q l : (1 <= q)%nat -> (1 <= l)%nat -> Z.of_nat (Nat.min q l) <= 2 ^ 41 ->
  good_word (Z.max (2 ^ 64 - 1) (product_word q (2 ^ 64 - 1) l (2 ^ 64 - 1) + (2 ^ 64 - 1))).
Proof using HU W.
  intros Hq Hl H. pose proof (pw_range q l Hq Hl ltac:(lia)) as R'. pose proof (cap_pow 236 ltac:(lia)) as HC. pose proof caps.
  destruct (top_f64_red (proj1 HU) ltac:(lia) 64 q l) as [H1 H2]; auto; try (change (2 ^ Z.of_nat 64) with (2 ^ 64); lia).
  split; [exact H1|]. split; [exact H2|]. apply size_two. lia.
Qed.
Lemma word_equal : group_no_wrap (2 ^ 64 - 1) 64 /\ group_room (2 ^ 64 - 1) 64 /\ group_size (2 ^ 64 - 1) 64 = 3%nat.
Proof using HU W.
  pose proof (cap_pow 236 ltac:(lia)) as HC. pose proof caps.
  destruct (top_f64_equal (proj1 HU) ltac:(lia) 64) as [H1 H2]; auto; try (change (2 ^ Z.of_nat 64) with (2 ^ 64); lia).
  split; [exact H1|]. split; [exact H2|]. exact size_three.
Qed.

(** ** Positions without a counterpart *)
Lemma groups_even n : Nat.Even n -> (2 <= n)%nat -> (n_groups (n - 1) 2 * 2 = n)%nat.
Proof. intros [k ->] H. unfold n_groups. destruct (2 * k - 1)%nat as [|j] eqn:Hj; [lia|]. assert (j = 2 * (k - 1))%nat by lia. subst j. rewrite (Nat.mul_comm 2 (k - 1)), Nat.div_mul by lia. lia. Qed.
Lemma groups_odd n : Nat.Odd n -> (2 <= n)%nat -> (n_groups (n - 1) 2 * 2 = n - 1)%nat.
Proof.
  intros [k ->] H. unfold n_groups. destruct (2 * k + 1 - 1)%nat as [|j] eqn:Hj; [lia|]. assert (j = (k - 1) * 2 + 1)%nat by lia. subst j.
  rewrite Nat.div_add_l by lia. change (1 / 2)%nat with 0%nat. lia.
Qed.
Lemma common_ge g nl nr : (1 <= g)%nat -> (Nat.min nl nr <= common_limbs g nl nr)%nat.
Proof. intros Hg. unfold common_limbs. pose proof (n_groups_fit0 nl g Hg). pose proof (n_groups_fit0 nr g Hg). destruct (Nat.min_spec (n_groups nl g) (n_groups nr g)) as [[_ ->]|[_ ->]]; lia. Qed.
Lemma common_even n nr : Nat.Even n -> (2 <= n)%nat -> (n <= nr)%nat -> (n <= common_limbs 2 (n - 1) nr)%nat.
Proof.
  intros He H2 Hr. unfold common_limbs. pose proof (n_groups_fit0 nr 2 ltac:(lia)). pose proof (groups_even n He H2).
  destruct (Nat.min_spec (n_groups (n - 1) 2) (n_groups nr 2)) as [[_ ->]|[_ ->]]; lia.
Qed.
Lemma common_odd n nr : Nat.Odd n -> (2 <= n)%nat -> (n <= nr)%nat -> common_limbs 2 (n - 1) nr = (n - 1)%nat.
Proof.
  intros He H2 Hr. unfold common_limbs. pose proof (n_groups_fit0 nr 2 ltac:(lia)). pose proof (groups_odd n He H2).
  destruct (Nat.min_spec (n_groups (n - 1) 2) (n_groups nr 2)) as [[H1 ->]|[H1 ->]]; lia.
Qed.

Lemma high_zero l k i : Forall (fun d => 0 <= d) l -> value_of (2 ^ 64) l < 2 ^ Z.of_nat (64 * k) -> (k <= i)%nat -> nth i l 0 = 0.
Proof.
  intros Hl HV Hi. pose proof (value_of_nth_le (2 ^ 64) l i ltac:(lia) Hl) as Hn.
  assert (0 <= nth i l 0). { destruct (nth_in_or_default i l 0) as [Hin| ->]; [|lia]. rewrite Forall_forall in Hl. auto. }
  replace ((2 ^ 64) ^ Z.of_nat i) with (2 ^ Z.of_nat (64 * i)) in Hn by (rewrite pow2_mul; reflexivity).
  assert (2 ^ Z.of_nat (64 * k) <= 2 ^ Z.of_nat (64 * i)) by (apply pow2_le; lia). nia.
Qed.
Lemma digits_nonneg l : digits l -> Forall (fun d => 0 <= d) l.
Proof. apply Forall_impl. lia. Qed.
Lemma digits_bound l : digits l -> 0 <= int64 l < 2 ^ Z.of_nat (64 * length l).
Proof. intros H. unfold int64. rewrite pow2_mul. change (2 ^ Z.of_nat 64) with (2 ^ 64). split; [apply value_of_nonneg; [lia|now apply digits_nonneg]|]. apply value_of_bound; [lia|exact H]. Qed.
Lemma digits_product A B : digits A -> digits B -> 0 <= int64 A * int64 B < 2 ^ Z.of_nat (64 * (length A + length B)).
Proof.
  intros HA HB. pose proof (digits_bound A HA). pose proof (digits_bound B HB).
  rewrite Nat.mul_add_distr_l, Nat2Z.inj_add, Z.pow_add_r by lia. split; [nia|]. apply Z.mul_lt_mono_nonneg; lia.
Qed.
Lemma excess g A B Q M R k : (1 <= length A)%nat -> (1 <= length B)%nat -> (1 <= length Q)%nat -> (1 <= length M)%nat -> (1 <= g)%nat ->
  digits A -> digits B -> digits Q -> digits M -> digits R ->
  int64 A * int64 B = int64 Q * int64 M + int64 R -> int64 A * int64 B < 2 ^ Z.of_nat (64 * k) ->
  (k <= common_limbs g (length A + length B - 1) (Nat.max (length Q + length M - 1) (length R)))%nat -> no_excess g A B Q M R.
Proof.
  intros LA LB LQ LM Hg HA HB HQ HM HR HE HP HK i Hi.
  assert (N : forall X Y, digits X -> digits Y -> Forall (fun d => 0 <= d) (convs X Y)) by (intros; apply convs_nonneg; now apply digits_nonneg).
  pose proof (digits_bound R HR). pose proof (digits_bound Q HQ). pose proof (digits_bound M HM).
  split; [|split].
  - rewrite <- convs_nth by auto. apply (high_zero _ k); auto; [|lia]. rewrite convs_value. exact HP.
  - rewrite <- convs_nth by auto. apply (high_zero _ k); auto; [|lia]. rewrite convs_value. fold (int64 Q) (int64 M). nia.
  - apply (high_zero _ k); [now apply digits_nonneg| |lia]. fold (int64 R). nia.
Qed.

(** ** The operands *)
Lemma num64_digits rho0 s b xs : good_for rho0 s -> num64 rho0 s b xs ->
  digits xs /\ (1 <= length xs)%nat /\ Z.of_nat (length xs) <= 2 ^ 40 /\ n_limbs (bparams b) = length xs.
Proof.
  intros G (Hb & Hw & Hm & _ & Hn & Hl). pose proof (bignat_for_canon _ _ _ _ G Hb) as HC. destruct Hb as ((HS & _) & HF & HB).
  split; [|split; [destruct xs; [congruence|cbn [length]; lia]|split; [exact Hl|]]].
  - rewrite Hm in HB. clear -HC HB. unfold digits. rewrite Forall_forall in *. intros v Hv. specialize (HC v Hv). specialize (HB v Hv). unfold canon in HC. lia.
  - rewrite HS. eapply Forall2_length; eauto.
Qed.
Lemma at_num64 s b xs : num64_at s b xs -> num64 (asg s) s b xs.
Proof. intros [H1 H2]. split; [now apply bignat_at_for|exact H2]. Qed.
Lemma nbits64 b xs : plain64 b xs -> n_limbs (bparams b) = length xs -> (1 <= length xs)%nat -> n_bits_of b = (64 * length xs)%nat.
Proof. intros (Hw & Hm & _) Hn HL. unfold n_bits_of. rewrite Hw, Hm, Hn. change (bigint_bits (2 ^ 64 - 1)) with 64%nat. lia. Qed.
Lemma q_exact n : (1 <= n)%nat -> q_limbs (64 * n) 0 64 = n.
Proof.
  intros H. unfold q_limbs. replace (64 * n - 0 - 1)%nat with ((n - 1) * 64 + 63)%nat by lia. rewrite Nat.div_add_l by lia. change (63 / 64)%nat with 0%nat. lia.
Qed.
Lemma nb64 : (64 < NUM_BITS)%nat.
Proof using HU. destruct HU as [_ H]. lia. Qed.

(** ** The verdicts, for any prover *)
Lemma wide_equal wit a b A B s u s' rho0 : good_for rho0 s -> num64 rho0 s a A -> num64 rho0 s b B ->
  run wit (equal_when_carried_regroup a b) s = (Ok u, s') -> (completed s rho0 s' (fun _ => True) <-> int64 A = int64 B).
Proof using HU W.
  intros G HA HB Hr. destruct (num64_digits _ _ _ _ G HA) as (DA & LA & _). destruct (num64_digits _ _ _ _ G HB) as (DB & LB & _).
  destruct HA as (Ha & WA & MA & _ & NA & _). destruct HB as (Hb & WB & MB & _ & NB & _). destruct word_equal as (R1 & R2 & R3).
  pose proof (top_regroup_exact wit a b A B s u s' rho0) as T. cbv zeta in T. rewrite WA, MA, MB in T. rewrite Z.max_id, R3 in T.
  specialize (T G Ha Hb Hr NA NB ltac:(lia) R1 R2). change (2 ^ Z.of_nat 64) with (2 ^ 64) in T. fold (int64 A) (int64 B) in T.
  transitivity (exists rho, same_on s rho rho0 /\ sat rho s'); [unfold completed; split; [intros (r & ? & ? & _); eauto|intros (r & ? & ?); exists r; auto]|].
  rewrite T. split; [tauto|]. intros EQ. split; [exact EQ|]. intros i Hi. fold (common_limbs 3 (length A) (length B)) in Hi.
  pose proof (common_ge 3 (length A) (length B) ltac:(lia)) as HC.
  assert (HM : int64 A < 2 ^ Z.of_nat (64 * Nat.min (length A) (length B))).
  { destruct (Nat.min_spec (length A) (length B)) as [[_ ->]|[_ ->]]; [|rewrite EQ]; now apply digits_bound. }
  split; (eapply high_zero; [apply digits_nonneg; assumption| |eapply Nat.le_trans; [exact HC|exact Hi]]); [exact HM|]. fold (int64 B). now rewrite <- EQ.
Qed.

Lemma wide_mult wit a b A B s p s' rho0 : let n := (length A + length B)%nat in good_for rho0 s -> num64 rho0 s a A -> num64 rho0 s b B ->
  run wit (mult a b) s = (Ok p, s') ->
  (completed s rho0 s' (fun rho => int64 (wires rho (limbs p)) = int64 A * int64 B /\ digits (wires rho (limbs p)) /\ length (limbs p) = n) <->
   Nat.Even n \/ int64 A * int64 B < 2 ^ Z.of_nat (64 * (n - 1))) /\
  (forall rho, same_on s rho rho0 -> sat rho s' -> int64 (wires rho (limbs p)) = int64 A * int64 B).
Proof using HU W.
  intros n G HA HB Hr. destruct (num64_digits _ _ _ _ G HA) as (DA & LA & UA & _). destruct (num64_digits _ _ _ _ G HB) as (DB & LB & UB & _).
  destruct HA as (Ha & WA & MA & _ & NA & _). destruct HB as (Hb & WB & MB & _ & NB & _). destruct (word_product (length A) (length B) LA LB ltac:(lia)) as (R1 & R2 & R3).
  pose proof cap_modulus as HC. pose proof (digits_product A B DA DB) as HP. fold n in HP.
  pose proof (top_mult_exact wit a b A B s p s' rho0) as T. cbv zeta in T. rewrite WA, MA, MB in T. change (2 ^ Z.of_nat 64) with (2 ^ 64) in T. rewrite R3 in T.
  specialize (T G Ha Hb Hr NA NB ltac:(lia) nb64 ltac:(lia) R1 R2). fold n in T. fold (int64 A) (int64 B) in T.
  assert (SND : forall rho, same_on s rho rho0 -> sat rho s' -> int64 (wires rho (limbs p)) = int64 A * int64 B /\ digits (wires rho (limbs p)) /\ length (limbs p) = n).
  { intros rho Hso Hs. destruct (bignat_for_is _ _ _ _ _ wit G Ha Hso (proj1 Hs)) as [(Ea & _ & _ & _ & _) Wa]. destruct (bignat_for_is _ _ _ _ _ wit G Hb Hso (proj1 Hs)) as [(Eb & _) Wb].
    pose proof (top_mult_sound wit a b s p s' rho) as S. cbv zeta in S. rewrite WA, MA, MB in S. change (2 ^ Z.of_nat 64) with (2 ^ 64) in S.
    assert (XA : wires rho (limbs a) = A). { destruct Ha as (_ & F & _). clear -F Hso Hs. unfold wires. induction F as [|l v ls vs H F IH]; cbn [map]; auto. rewrite IH, (H rho Hso (proj1 Hs)); auto. }
    assert (XB : wires rho (limbs b) = B). { destruct Hb as (_ & F & _). clear -F Hso Hs. unfold wires. induction F as [|l v ls vs H F IH]; cbn [map]; auto. rewrite IH, (H rho Hso (proj1 Hs)); auto. }
    assert (KA : length (limbs a) = length A) by (rewrite <- XA; unfold wires; now rewrite map_length).
    assert (KB : length (limbs b) = length B) by (rewrite <- XB; unfold wires; now rewrite map_length).
    rewrite KA, KB in S. destruct S as (S1 & S2 & S3 & S4); auto.
    - apply Ha.
    - apply Hb.
    - unfold bounded. rewrite XA. apply Ha.
    - unfold bounded. rewrite XB. apply Hb.
    - lia.
    - unfold int_of in S1. rewrite S4, WA, WB, XA, XB in S1. split; [exact S1|]. split; [exact S2|exact S3]. }
  split; [|intros rho H1 H2; now apply SND].
  transitivity (exists rho, same_on s rho rho0 /\ sat rho s').
  { unfold completed. split; [intros (r & ? & ? & _); eauto|intros (r & H1 & H2); exists r; auto]. }
  rewrite T. destruct (Nat.Even_or_Odd n) as [V|V].
  - rewrite groups_even by (auto; lia). split; [auto|]. intros _. split; apply HP.
  - rewrite groups_odd by (auto; lia). split; [tauto|]. intros [V'|H]; [exfalso; eapply Nat.Even_Odd_False; eauto|]. split; [exact H|apply HP].
Qed.
Lemma quotient_length wit a b m A B Mm s q r s' rho0 : good_for rho0 s -> num64 rho0 s a A -> num64 rho0 s b B -> num64 rho0 s m Mm ->
  run wit (mult_mod a b m) s = (Ok (q, r), s') -> length (limbs q) = (length A + length B)%nat.
Proof using HU W.
  intros G HA HB HM Hr. destruct (num64_digits _ _ _ _ G HA) as (_ & LA & _ & KA). destruct (num64_digits _ _ _ _ G HB) as (_ & LB & _ & KB).
  destruct HA as (Ha & PA). destruct HB as (Hb & PB). destruct HM as (Hm & _ & _ & Z0 & _).
  refine (rets_run wit _ _ (fun qr => length (limbs (fst qr)) = (length A + length B)%nat) _ _ _ Hr).
  unfold mult_mod, width_agreement. rewrite (proj1 PA), (proj1 PB). change (64 =? 64)%nat with true. cbn [lift bind].
  rewrite (n_bits_ok a), (n_bits_ok b) by lia. cbn [lift bind]. unfold quotient_limbs. change (64 =? 0)%nat with false. cbn [lift bind].
  apply rets_bind, rets_ns. eapply rets_mono; [apply rets_alloc_nat|]. cbv beta. intros q0 [_ Hq0].
  do 5 (apply rets_skip; intros ?). cbv zeta. apply rets_skip; intros ?. cbn [rets fst]. rewrite Hq0.
  pose proof (nbits64 a A PA KA LA) as Na. pose proof (nbits64 b B PB KB LB) as Nb.
  rewrite ?Na, ?Nb, Z0, <- Nat.mul_add_distr_l. apply q_exact. lia.
Qed.

Lemma wide_mult_mod wit a b m A B Mm Q R s q r s' rho0 : let n := (length A + length B)%nat in
  good_for rho0 s -> num64 rho0 s a A -> num64 rho0 s b B -> num64 rho0 s m Mm -> run wit (mult_mod a b m) s = (Ok (q, r), s') ->
  (completed s rho0 s' (fun rho => wires rho (limbs q) = Q /\ wires rho (limbs r) = R) <->
   length Q = n /\ length R = length Mm /\ digits Q /\ digits R /\ int64 A * int64 B = int64 Q * int64 Mm + int64 R /\
   (Nat.Even n \/ forall i, (n - 1 <= i)%nat -> conv Q Mm i = 0 /\ nth i R 0 = 0)).
Proof using HU W.
  intros n G HA HB HM Hr. pose proof (quotient_length _ _ _ _ _ _ _ _ _ _ _ _ G HA HB HM Hr) as LQ. fold n in LQ.
  destruct (num64_digits _ _ _ _ G HA) as (DA & LA & UA & _). destruct (num64_digits _ _ _ _ G HB) as (DB & LB & UB & _). destruct (num64_digits _ _ _ _ G HM) as (DM & LM & UM & _).
  destruct HA as (Ha & WA & MA & _ & NA & _). destruct HB as (Hb & WB & MB & _ & NB & _). destruct HM as (Hm & WM & MM & _ & NM & _).
  destruct (word_mods (length A) (length B) n (length Mm)) as (R1 & R2 & R3); auto; try lia.
  pose proof cap_modulus as HC. pose proof (digits_product A B DA DB) as HP. fold n in HP.
  pose proof (top_mult_mod_prover wit a b m A B Mm Q R s q r s' rho0) as T. cbv zeta in T. rewrite WA, MA, MB, MM, LQ in T. change (2 ^ Z.of_nat 64) with (2 ^ 64) in T. rewrite R3 in T.
  specialize (T G Ha Hb Hm Hr NA NB NM ltac:(lia) nb64 ltac:(lia) ltac:(lia) R1 R2). unfold completed. fold (int64 A) (int64 B) (int64 Q) (int64 R) (int64 Mm) in T.
  rewrite T. unfold digits. split.
  - intros (H1 & H2 & H3 & H4 & H5 & H6). repeat match goal with |- _ /\ _ => split end; auto.
    destruct (Nat.Even_or_Odd n) as [V|V]; [now left|right]. intros i Hi. unfold no_excess in H6. fold n in H6. rewrite H1 in H6.
    rewrite common_odd in H6 by (auto; lia). destruct (H6 i Hi) as (_ & K1 & K2). auto.
  - intros (H1 & H2 & H3 & H4 & H5 & H6). repeat match goal with |- _ /\ _ => split end; auto.
    destruct (Nat.Even_or_Odd n) as [V|V].
    + apply (excess 2 A B Q Mm R n); auto; try lia. fold n. rewrite H1. apply common_even; auto; lia.
    + destruct H6 as [V'|H6]; [exfalso; eapply Nat.Even_Odd_False; eauto|]. intros i Hi. fold n in Hi. rewrite H1, common_odd in Hi by (auto; lia).
      destruct (H6 i Hi). split; [|auto]. apply ExactP.conv_high; auto. 
Qed.

Lemma wide_apm wit a b m r A B Mm R Q s q s' rho0 : let n := (length A + length B)%nat in
  good_for rho0 s -> num64 rho0 s a A -> num64 rho0 s b B -> num64 rho0 s m Mm -> num64 rho0 s r R -> run wit (assert_product_mod a b m r) s = (Ok q, s') ->
  (completed s rho0 s' (fun rho => wires rho (limbs q) = Q) <->
   length Q = n /\ digits Q /\ int64 A * int64 B = int64 Q * int64 Mm + int64 R /\
   (Nat.Even n \/ forall i, (n - 1 <= i)%nat -> conv Q Mm i = 0 /\ nth i R 0 = 0)).
Proof using HU W.
  intros n G HA HB HM HR Hr.
  destruct (num64_digits _ _ _ _ G HA) as (DA & LA & UA & _). destruct (num64_digits _ _ _ _ G HB) as (DB & LB & UB & _). destruct (num64_digits _ _ _ _ G HM) as (DM & LM & UM & _). destruct (num64_digits _ _ _ _ G HR) as (DR & LR & UR & _).
  destruct HA as (Ha & WA & MA & _ & NA & _). destruct HB as (Hb & WB & MB & _ & NB & _). destruct HM as (Hm & WM & MM & _ & NM & _). destruct HR as (Hx & WR & MR & _ & NR & _).
  destruct (word_mods (length A) (length B) n (length Mm)) as (R1 & R2 & R3); auto; try lia.
  pose proof cap_modulus as HC. pose proof (digits_product A B DA DB) as HP. fold n in HP.
  pose proof (top_apm_prover wit a b m r A B Mm R Q s q s' rho0) as T. cbv zeta in T. rewrite WA, MA, MB, MM, MR in T. change (2 ^ Z.of_nat 64) with (2 ^ 64) in T. fold n in T. rewrite R3 in T.
  specialize (T G Ha Hb Hm Hx Hr NA NB NM NR ltac:(lia) nb64 ltac:(lia) R1 R2). unfold completed. fold (int64 A) (int64 B) (int64 Q) (int64 R) (int64 Mm) in T.
  rewrite T. unfold digits. split.
  - intros (H1 & H3 & H5 & H6). repeat match goal with |- _ /\ _ => split end; auto.
    destruct (Nat.Even_or_Odd n) as [V|V]; [now left|right]. intros i Hi. unfold no_excess in H6. fold n in H6. rewrite H1 in H6.
    rewrite common_odd in H6 by (auto; lia). destruct (H6 i Hi) as (_ & K1 & K2). auto.
  - intros (H1 & H3 & H5 & H6). repeat match goal with |- _ /\ _ => split end; auto.
    destruct (Nat.Even_or_Odd n) as [V|V].
    + apply (excess 2 A B Q Mm R n); auto; try lia. fold n. rewrite H1. apply common_even; auto; lia.
    + destruct H6 as [V'|H6]; [exfalso; eapply Nat.Even_Odd_False; eauto|]. intros i Hi. fold n in Hi. rewrite H1, common_odd in Hi by (auto; lia).
      destruct (H6 i Hi). split; [|auto]. apply ExactP.conv_high; auto.
Qed.

Lemma exists_digits v n : 0 <= v < 2 ^ Z.of_nat (64 * n) -> exists Q, length Q = n /\ digits Q /\ int64 Q = v.
Proof.
  revert v. induction n as [|n IH]; intros v Hv.
  - exists []. change (2 ^ Z.of_nat (64 * 0)) with 1 in Hv. split; [reflexivity|]. split; [constructor|]. unfold int64. cbn [value_of]. lia.
  - destruct (IH (v / 2 ^ 64)) as (Q & L & D & V).
    { split; [apply Z.div_pos; lia|]. apply Z.div_lt_upper_bound; [lia|]. rewrite Nat.mul_succ_r, Nat2Z.inj_add, Z.pow_add_r in Hv by lia. change (2 ^ Z.of_nat 64) with (2 ^ 64) in Hv. lia. }
    exists (v mod 2 ^ 64 :: Q). split; [cbn [length]; lia|]. split; [constructor; [apply Z.mod_pos_bound; lia|exact D]|].
    unfold int64 in *. cbn [value_of]. rewrite V. pose proof (Z.div_mod v (2 ^ 64) ltac:(lia)). lia.
Qed.

Lemma wide_red_mod wit a m A Mm R s r s' rho0 :
  good_for rho0 s -> num64 rho0 s a A -> num64 rho0 s m Mm -> run wit (red_mod a m) s = (Ok r, s') ->
  (completed s rho0 s' (fun rho => wires rho (limbs r) = R) <->
   length R = length Mm /\ digits R /\ exists q, 0 <= q /\ int64 A = q * int64 Mm + int64 R).
Proof using HU W.
  intros G HA HM Hr.
  destruct (num64_digits _ _ _ _ G HA) as (DA & LA & UA & KA). destruct (num64_digits _ _ _ _ G HM) as (DM & LM & UM & _).
  pose proof (nbits64 a A (proj2 HA) KA LA) as NBA.
  destruct HA as (Ha & WA & MA & _ & NA & _). destruct HM as (Hm & WM & MM & ZM & NM & _).
  destruct (word_reds (length A) (length Mm)) as (R1 & R2 & R3); auto; try lia.
  pose proof cap_modulus as HC. pose proof (digits_bound A DA) as HP. pose proof (digits_bound Mm DM) as HPM.
  pose proof (top_red_mod_prover wit a m A Mm R s r s' rho0) as T. cbv zeta in T. rewrite NBA, WA, MA, MM, ZM, (q_exact (length A)) in T by auto. change (2 ^ Z.of_nat 64) with (2 ^ 64) in T. rewrite R3 in T.
  specialize (T G Ha Hm Hr NA NM ltac:(lia) nb64 ltac:(lia) R1 R2). unfold completed. fold (int64 A) (int64 R) (int64 Mm) in T.
  rewrite T. unfold digits at 1. split.
  - intros (H1 & H2 & Q & H3 & H4 & H5 & _). split; [exact H1|]. split; [exact H2|]. exists (int64 Q). split; [|exact H5]. apply (digits_bound Q H4).
  - intros (H1 & H2 & q & H3 & H4). split; [exact H1|]. split; [exact H2|]. pose proof (digits_bound R H2) as HR.
    assert (X : exists q', 0 <= q' <= int64 A /\ int64 A = q' * int64 Mm + int64 R).
    { destruct (Z.eq_dec (int64 Mm) 0) as [Z0|N0]; [exists 0; rewrite Z0 in *; lia|]. exists q. split; [nia|exact H4]. }
    destruct X as (q' & Hq & HE). destruct (exists_digits q' (length A)) as (Q & LQ & DQ & VQ); [lia|].
    exists Q. split; [exact LQ|]. split; [exact DQ|]. fold (int64 Q). rewrite VQ. split; [exact HE|].
    assert (D1 : digits [1]) by (constructor; [lia|constructor]). assert (V1 : int64 [1] = 1) by reflexivity.
    assert (HE1 : int64 A * int64 [1] = int64 Q * int64 Mm + int64 R) by (rewrite V1, VQ; lia).
    assert (HP1 : int64 A * int64 [1] < 2 ^ Z.of_nat (64 * length A)) by (rewrite V1; lia).
    assert (L1 : (1 <= length [1])%nat) by (cbn [length]; lia).
    apply (excess 2 A [1] Q Mm R (length A) LA L1 ltac:(lia) LM ltac:(lia) DA D1 DQ DM H2 HE1 HP1).
    cbn [length]. rewrite LQ. eapply Nat.le_trans; [|apply common_ge; lia]. lia.
Qed.

Lemma wide_divides wit a b A B s u s' rho0 : good_for rho0 s -> num64 rho0 s a A -> num64 rho0 s b B ->
  run wit (divides a b) s = (Ok u, s') -> (completed s rho0 s' (fun _ => True) <-> (int64 A | int64 B)).
Proof using HU W.
  intros G HA HB Hr.
  destruct (num64_digits _ _ _ _ G HA) as (DA & LA & UA & _). destruct (num64_digits _ _ _ _ G HB) as (DB & LB & UB & _).
  destruct HA as (Ha & WA & MA & _ & NA & _). destruct HB as (Hb & WB & MB & _ & NB & _). destruct (word_product (length A) (length B) LA LB ltac:(lia)) as (R1 & R2 & R3).
  pose proof cap_modulus as HC. pose proof (digits_bound A DA) as HPA. pose proof (digits_bound B DB) as HPB.
  pose proof (top_divides_prover wit a b A B s u s' rho0) as T. cbv zeta in T. rewrite WA, MA, MB in T. change (2 ^ Z.of_nat 64) with (2 ^ 64) in T. rewrite R3 in T.
  specialize (T G Ha Hb Hr NA NB ltac:(lia) nb64 ltac:(lia) R1 R2). fold (int64 A) (int64 B) in T.
  transitivity (exists rho, same_on s rho rho0 /\ sat rho s'); [unfold completed; split; [intros (r & ? & ? & _); eauto|intros (r & ? & ?); exists r; auto]|].
  rewrite T. split.
  - intros (Q & _ & _ & HE & _). exists (int64 Q). fold (int64 Q) in HE. lia.
  - intros [q Hq]. assert (X : exists q', 0 <= q' <= int64 B /\ int64 A * q' = int64 B).
    { destruct (Z.eq_dec (int64 A) 0) as [Z0|N0]; [exists 0; rewrite Z0 in *; lia|]. exists q. split; [nia|lia]. }
    destruct X as (q' & Hq' & HE). destruct (exists_digits q' (length B)) as (Q & LQ & DQ & VQ); [lia|].
    exists Q. split; [exact LQ|]. split; [exact DQ|]. fold (int64 Q). rewrite VQ. split; [exact HE|]. intros i Hi.
    pose proof (common_ge 2 (length A + length B - 1) (length B) ltac:(lia)) as HG.
    split; [|apply nth_overflow; lia]. rewrite <- convs_nth by lia. apply (high_zero _ (length B)); [apply convs_nonneg; now apply digits_nonneg| |lia].
    rewrite convs_value. fold (int64 A) (int64 Q). rewrite VQ. lia.
Qed.
(** ** Honest runs *)
Lemma groups_reach nl nr k : (k <= common_limbs 2 nl nr)%nat -> forall P, P < 2 ^ Z.of_nat (64 * k) -> fits_groups 64 2 nl nr P.
Proof. intros H P HP. right. eapply Z.lt_le_trans; [exact HP|]. apply pow2_le. unfold common_limbs in H. nia. Qed.

Lemma honest_equal a b A B s : good s -> num64_at s a A -> num64_at s b B ->
  exists s', run true (equal_when_carried_regroup a b) s = (Ok tt, s') /\ (good s' <-> int64 A = int64 B).
Proof using HU W.
  intros G HA HB. pose proof (good_good_for s G) as GF. destruct (num64_digits _ _ _ _ GF (at_num64 _ _ _ HA)) as (DA & LA & _). destruct (num64_digits _ _ _ _ GF (at_num64 _ _ _ HB)) as (DB & LB & _).
  destruct HA as (Ha & WA & MA & _ & NA & _). destruct HB as (Hb & WB & MB & _ & NB & _). destruct word_equal as (R1 & R2 & R3).
  pose proof (top_regroup_decides a b A B s) as T. cbv zeta in T. rewrite WA, WB, MA, MB in T. rewrite Z.max_id, R3 in T.
  destruct (T G Ha Hb eq_refl ltac:(lia) NA NB R1 R2) as (s' & Hr & Hg). exists s'. split; [exact Hr|]. rewrite Hg. change (2 ^ Z.of_nat 64) with (2 ^ 64). fold (int64 A) (int64 B).
  split; [tauto|]. intros EQ. split; [exact EQ|]. intros i Hi. fold (common_limbs 3 (length A) (length B)) in Hi.
  pose proof (common_ge 3 (length A) (length B) ltac:(lia)) as HC.
  assert (HM : int64 A < 2 ^ Z.of_nat (64 * Nat.min (length A) (length B))).
  { destruct (Nat.min_spec (length A) (length B)) as [[_ ->]|[_ ->]]; [|rewrite EQ]; now apply digits_bound. }
  split; (eapply high_zero; [apply digits_nonneg; assumption| |eapply Nat.le_trans; [exact HC|exact Hi]]); [exact HM|]. fold (int64 B). now rewrite <- EQ.
Qed.

Lemma honest_mult a b A B s : let n := (length A + length B)%nat in good s -> num64_at s a A -> num64_at s b B ->
  exists p s' D, run true (mult a b) s = (Ok p, s') /\ bignat_at s' p D /\ length D = n /\ value p = Some (int64 A * int64 B) /\
    (good s' <-> Nat.Even n \/ int64 A * int64 B < 2 ^ Z.of_nat (64 * (n - 1))).
Proof using HU W.
  intros n G HA HB. pose proof (good_good_for s G) as GF. destruct (num64_digits _ _ _ _ GF (at_num64 _ _ _ HA)) as (DA & LA & UA & _). destruct (num64_digits _ _ _ _ GF (at_num64 _ _ _ HB)) as (DB & LB & UB & _).
  destruct HA as (Ha & WA & MA & _ & NA & _). destruct HB as (Hb & WB & MB & _ & NB & _). destruct (word_product (length A) (length B) LA LB ltac:(lia)) as (R1 & R2 & R3).
  pose proof (digits_product A B DA DB) as HP. fold n in HP.
  pose proof (top_mult_verdict a b A B s) as T. cbv zeta in T. rewrite WA, WB, MA, MB in T. change (2 ^ Z.of_nat 64) with (2 ^ 64) in T. rewrite R3 in T. fold n in T. fold (int64 A) (int64 B) in T.
  destruct (T G Ha Hb eq_refl NA NB ltac:(lia) nb64 ltac:(lia) R1 R2) as (p & s' & D & H1 & H2 & H3 & H4 & H5).
  exists p, s', D. split; [exact H1|]. split; [exact H2|]. split; [exact H3|]. split; [exact H4|]. rewrite H5.
  destruct (Nat.Even_or_Odd n) as [V|V].
  - rewrite groups_even by (auto; lia). split; [auto|]. intros _. apply HP.
  - rewrite groups_odd by (auto; lia). split; [tauto|]. intros [V'|H]; [exfalso; eapply Nat.Even_Odd_False; eauto|exact H].
Qed.

Lemma quotient_small P M k : 0 <= P < 2 ^ Z.of_nat k -> 0 < M -> P / M < 2 ^ Z.of_nat k.
Proof. intros HP HM. apply Z.le_lt_trans with P; [|lia]. apply Z.div_le_upper_bound; nia. Qed.

Lemma honest_mult_mod a b m A B Mm s : let n := (length A + length B)%nat in good s -> num64_at s a A -> num64_at s b B -> num64_at s m Mm ->
  0 < int64 Mm -> Nat.Even n ->
  exists q r s', run true (mult_mod a b m) s = (Ok (q, r), s') /\ good s' /\
    value q = Some (int64 A * int64 B / int64 Mm) /\ value r = Some ((int64 A * int64 B) mod int64 Mm).
Proof using HU W.
  intros n G HA HB HM HZ V. pose proof (good_good_for s G) as GF.
  destruct (num64_digits _ _ _ _ GF (at_num64 _ _ _ HA)) as (DA & LA & UA & KA). destruct (num64_digits _ _ _ _ GF (at_num64 _ _ _ HB)) as (DB & LB & UB & KB). destruct (num64_digits _ _ _ _ GF (at_num64 _ _ _ HM)) as (DM & LM & UM & _).
  pose proof (nbits64 a A (proj2 HA) KA LA) as Na. pose proof (nbits64 b B (proj2 HB) KB LB) as Nb.
  destruct HA as (Ha & WA & MA & _ & NA & _). destruct HB as (Hb & WB & MB & _ & NB & _). destruct HM as (Hm & WM & MM & ZM & NM & _).
  destruct (word_mods (length A) (length B) n (length Mm)) as (R1 & R2 & R3); auto; try lia.
  pose proof (digits_product A B DA DB) as HP. fold n in HP. pose proof (digits_bound Mm DM) as HPM.
  pose proof (top_mult_mod_complete a b m A B Mm s) as T. cbv zeta in T. rewrite Na, Nb, WA, WB, WM, MA, MB, MM, ZM, <- Nat.mul_add_distr_l in T. fold n in T. rewrite (q_exact n) in T by lia. change (2 ^ Z.of_nat 64) with (2 ^ 64) in T.
  rewrite R3 in T. fold (int64 A) (int64 B) (int64 Mm) in T.
  destruct (T G Ha Hb Hm eq_refl (or_introl eq_refl) NA NB NM ltac:(lia) nb64 ltac:(lia) (quotient_small _ _ _ HP HZ) R2) as (q & r & s' & Q & R & H1 & H2 & _ & _ & _ & _ & H3 & H4).
  { apply (groups_reach _ _ n); [|apply HP]. apply common_even; auto; lia. }
  exists q, r, s'. auto.
Qed.

Lemma honest_apm a b m r A B Mm R s : let n := (length A + length B)%nat in good s -> num64_at s a A -> num64_at s b B -> num64_at s m Mm -> num64_at s r R ->
  0 < int64 Mm ->
  exists q s', run true (assert_product_mod a b m r) s = (Ok q, s') /\ value q = Some (int64 A * int64 B / int64 Mm) /\
    (Nat.Even n -> (good s' <-> int64 R = (int64 A * int64 B) mod int64 Mm)).
Proof using HU W.
  intros n G HA HB HM HR HZ. pose proof (good_good_for s G) as GF.
  destruct (num64_digits _ _ _ _ GF (at_num64 _ _ _ HA)) as (DA & LA & UA & _). destruct (num64_digits _ _ _ _ GF (at_num64 _ _ _ HB)) as (DB & LB & UB & _). destruct (num64_digits _ _ _ _ GF (at_num64 _ _ _ HM)) as (DM & LM & UM & _). destruct (num64_digits _ _ _ _ GF (at_num64 _ _ _ HR)) as (DR & LR & UR & _).
  destruct HA as (Ha & WA & MA & _ & NA & _). destruct HB as (Hb & WB & MB & _ & NB & _). destruct HM as (Hm & WM & MM & ZM & NM & _). destruct HR as (Hx & WR & MR & _ & NR & _).
  destruct (word_mods (length A) (length B) n (length Mm)) as (R1 & R2 & R3); auto; try lia.
  pose proof (digits_product A B DA DB) as HP. fold n in HP.
  pose proof (top_apm_verdict a b m r A B Mm R s) as T. cbv zeta in T. rewrite WA, WB, WM, WR, MA, MB, MM, MR in T. fold n in T. change (2 ^ Z.of_nat 64) with (2 ^ 64) in T.
  rewrite R3 in T. fold (int64 A) (int64 B) (int64 Mm) (int64 R) in T.
  destruct (T G Ha Hb Hm Hx eq_refl eq_refl eq_refl NA NB NM NR ltac:(lia) nb64 HZ (quotient_small _ _ _ HP HZ) R1 R2) as (q & s' & Q & H1 & _ & H3 & H4 & H5 & H6 & H7).
  exists q, s'. split; [exact H1|]. split; [exact H6|]. intros V. rewrite H7. split; [tauto|]. intros EQ. split; [exact EQ|].
  fold (int64 Q) in H5. assert (HE : int64 A * int64 B = int64 Q * int64 Mm + int64 R) by (rewrite H5, EQ; pose proof (Z.div_mod (int64 A * int64 B) (int64 Mm) ltac:(lia)); lia).
  apply (excess 2 A B Q Mm R n); auto; try lia. fold n. rewrite H3. apply common_even; auto; lia.
Qed.

Lemma honest_red_mod a m A Mm s : good s -> num64_at s a A -> num64_at s m Mm -> 0 < int64 Mm ->
  exists r s', run true (red_mod a m) s = (Ok r, s') /\ good s' /\ value r = Some (int64 A mod int64 Mm).
Proof using HU W.
  intros G HA HM HZ. pose proof (good_good_for s G) as GF.
  destruct (num64_digits _ _ _ _ GF (at_num64 _ _ _ HA)) as (DA & LA & UA & KA). destruct (num64_digits _ _ _ _ GF (at_num64 _ _ _ HM)) as (DM & LM & UM & _).
  pose proof (nbits64 a A (proj2 HA) KA LA) as Na.
  destruct HA as (Ha & WA & MA & _ & NA & _). destruct HM as (Hm & WM & MM & ZM & NM & _).
  destruct (word_reds (length A) (length Mm)) as (R1 & R2 & R3); auto; try lia.
  pose proof (digits_bound A DA) as HP. pose proof (digits_bound Mm DM) as HPM.
  pose proof (top_red_mod_complete a m A Mm s) as T. cbv zeta in T. rewrite Na, WA, WM, MA, MM, ZM in T. rewrite (q_exact (length A)) in T by lia. change (2 ^ Z.of_nat 64) with (2 ^ 64) in T.
  rewrite R3 in T. fold (int64 A) (int64 Mm) in T.
  destruct (T G Ha Hm eq_refl NA NM ltac:(lia) nb64 ltac:(lia) (quotient_small _ _ _ HP HZ) R2) as (r & s' & R & H1 & H2 & _ & _ & H3).
  { apply (groups_reach _ _ (length A)); [|apply HP]. eapply Nat.le_trans; [|apply common_ge; lia]. lia. }
  exists r, s'. auto.
Qed.

Lemma honest_divides a b A B s : good s -> num64_at s a A -> num64_at s b B -> 0 < int64 A -> (int64 A | int64 B) ->
  exists s', run true (divides a b) s = (Ok tt, s') /\ good s'.
Proof using HU W.
  intros G HA HB HZ HD. pose proof (good_good_for s G) as GF.
  destruct (num64_digits _ _ _ _ GF (at_num64 _ _ _ HA)) as (DA & LA & UA & KA). destruct (num64_digits _ _ _ _ GF (at_num64 _ _ _ HB)) as (DB & LB & UB & _).
  destruct HA as (Ha & WA & MA & _ & NA & _). destruct HB as (Hb & WB & MB & _ & NB & _). destruct (word_product (length A) (length B) LA LB ltac:(lia)) as (R1 & R2 & R3).
  pose proof (digits_bound B DB) as HP.
  pose proof (top_divides_complete a b A B s) as T. cbv zeta in T. rewrite WA, WB, MA, MB in T. change (2 ^ Z.of_nat 64) with (2 ^ 64) in T.
  rewrite R3 in T. fold (int64 A) (int64 B) in T. apply T; auto; [lia|apply nb64|eapply Forall_impl; [|exact DB]; cbv beta; lia|].
  apply (groups_reach _ _ (length B)); [|apply HP]. eapply Nat.le_trans; [|apply common_ge; lia]. lia.
Qed.
Lemma wide_alloc v n s : good s -> (1 <= n)%nat -> Z.of_nat n <= 2 ^ 40 -> 0 <= v < 2 ^ Z.of_nat (64 * n) ->
  exists b s' xs, run true (alloc_from_nat (Ok v) 64 n) s = (Ok b, s') /\ good s' /\ num64_at s' b xs /\ length xs = n /\ int64 xs = v.
Proof using HU W.
  intros G Hn Hl Hv. destruct (top_alloc_from_nat v 64 n s G Hn nb64 Hv) as (b & s' & xs & H1 & H2 & H3 & H4 & H5 & H6 & H7).
  exists b, s', xs. split; [exact H1|]. split; [exact H2|]. split; [|split; [exact H5|]].
  - split; [exact H3|]. unfold plain64. rewrite H6. cbn [params_new limb_width max_word min_bits]. change (2 ^ Z.of_nat 64) with (2 ^ 64). rewrite H5. split; [reflexivity|]. split; [reflexivity|]. split; [reflexivity|]. split; [destruct xs; [cbn in H5; lia|discriminate]|exact Hl].
  - destruct H3 as (_ & _ & K & _). rewrite H6 in K. cbn [params_new limb_width] in K. unfold int64. change (2 ^ 64) with (2 ^ Z.of_nat 64). congruence.
Qed.
Lemma num64_later {A} (m : prog A) s r s' b xs : run true m s = (r, s') -> num64_at s b xs -> num64_at s' b xs.
Proof.
  intros Hr [(H1 & H2 & H3) H4]. split; [|exact H4]. split; [exact H1|]. split; [|exact H3].
  clear H1 H3 H4. induction H2 as [|l v ls vs H F IH]; constructor; auto. intros rho Ha Ho. apply H; auto. eapply run_agree; eauto.
Qed.

Lemma wide_two x nx y ny : (1 <= nx)%nat -> Z.of_nat nx <= 2 ^ 40 -> 0 <= x < 2 ^ Z.of_nat (64 * nx) -> (1 <= ny)%nat -> Z.of_nat ny <= 2 ^ 40 -> 0 <= y < 2 ^ Z.of_nat (64 * ny) ->
  exists a b A B s, run true (let! a := alloc_from_nat (Ok x) 64 nx in let! b := alloc_from_nat (Ok y) 64 ny in Ret (a, b)) st_init = (Ok (a, b), s) /\
    good s /\ num64_at s a A /\ num64_at s b B /\ length A = nx /\ length B = ny /\ int64 A = x /\ int64 B = y.
Proof using HU W.
  intros H1 H2 H3 H4 H5 H6. destruct (wide_alloc x nx st_init good_init H1 H2 H3) as (a & s1 & A & R1 & G1 & N1 & L1 & V1).
  destruct (wide_alloc y ny s1 G1 H4 H5 H6) as (b & s2 & B & R2 & G2 & N2 & L2 & V2).
  exists a, b, A, B, s2. rewrite run_bind, R1. cbn [fst snd]. rewrite run_bind, R2. cbn [run]. pose proof (num64_later _ _ _ _ _ _ R2 N1). auto 10.
Qed.
End Wide.

Lemma usual_pallas l ck : faithful_log2 l -> usual_field (pallas_f64 l ck) /\ Wf (pallas_f64 l ck).
Proof. intros H. split; [|apply wf_pallas_f64]. split; [now apply f64_carries_pallas|]. change (@NUM_BITS (pallas_f64 l ck)) with (@NUM_BITS (pallas_env ck)). rewrite pallas_num_bits. lia. Qed.
Lemma usual_fr l ck : faithful_log2 l -> usual_field (fr_f64 l ck) /\ Wf (fr_f64 l ck).
Proof. intros H. split; [|apply wf_fr_f64]. split; [now apply f64_carries_fr|]. assert (K : @NUM_BITS (fr_f64 l ck) = 255%nat) by (unfold NUM_BITS; change (Z.log2 (@modulus (fr_f64 l ck))) with 254; reflexivity). rewrite K. lia. Qed.

(** Over the field of the example program: a product that fills three limbs is refused, one that fills two is accepted; sizes do not matter to equality. *)
Lemma wide_witness : let E := pallas_f64 log2_down true in let two x nx y ny := let! a := alloc_from_nat (Ok x) 64 nx in let! b := alloc_from_nat (Ok y) 64 ny in Ret (a, b) in
  (exists a b s p s', run true (two (2 ^ 63) 1%nat (2 ^ 65) 2%nat) st_init = (Ok (a, b), s) /\ good s /\
     run true (mult a b) s = (Ok p, s') /\ value p = Some (2 ^ 128) /\ ~ good s') /\
  (exists a b s p s', run true (two (2 ^ 64 - 1) 1%nat (2 ^ 64 - 1) 1%nat) st_init = (Ok (a, b), s) /\ good s /\
     run true (mult a b) s = (Ok p, s') /\ value p = Some ((2 ^ 64 - 1) ^ 2) /\ good s') /\
  (exists a b s s', run true (two (2 ^ 64 + 12) 2%nat (2 ^ 64 + 12) 5%nat) st_init = (Ok (a, b), s) /\ good s /\
     run true (equal_when_carried_regroup a b) s = (Ok tt, s') /\ good s') /\
  (exists a b s s', run true (two 12 1%nat (2 ^ 64 + 12) 5%nat) st_init = (Ok (a, b), s) /\ good s /\
     run true (equal_when_carried_regroup a b) s = (Ok tt, s') /\ ~ good s').
Proof.
  intros E two. pose proof (proj1 (usual_pallas log2_down true log2_down_faithful)) as HU. pose proof (wf_pallas_f64 log2_down true) as W. fold E in HU, W.
  split; [|split; [|split]].
  - destruct (wide_two HU (2 ^ 63) 1 (2 ^ 65) 2) as (a & b & A & B & s & R & G & NA & NB & LA & LB & VA & VB); try lia.
    destruct (honest_mult HU a b A B s G NA NB) as (p & s' & D & H1 & _ & _ & H2 & H3). rewrite VA, VB in H2, H3. rewrite LA, LB in H3.
    exists a, b, s, p, s'. split; [exact R|]. split; [exact G|]. split; [exact H1|]. split; [exact H2|]. rewrite H3. intros [[k K]|K]; [lia|]. vm_compute in K. discriminate.
  - destruct (wide_two HU (2 ^ 64 - 1) 1 (2 ^ 64 - 1) 1) as (a & b & A & B & s & R & G & NA & NB & LA & LB & VA & VB); try lia.
    destruct (honest_mult HU a b A B s G NA NB) as (p & s' & D & H1 & _ & _ & H2 & H3). rewrite VA, VB in H2, H3. rewrite LA, LB in H3.
    exists a, b, s, p, s'. split; [exact R|]. split; [exact G|]. split; [exact H1|]. split; [exact H2|]. apply H3. left. now exists 1%nat.
  - destruct (wide_two HU (2 ^ 64 + 12) 2 (2 ^ 64 + 12) 5) as (a & b & A & B & s & R & G & NA & NB & LA & LB & VA & VB); try lia.
    destruct (honest_equal HU a b A B s G NA NB) as (s' & H1 & H2). exists a, b, s, s'. split; [exact R|]. split; [exact G|]. split; [exact H1|]. apply H2. congruence.
  - destruct (wide_two HU 12 1 (2 ^ 64 + 12) 5) as (a & b & A & B & s & R & G & NA & NB & LA & LB & VA & VB); try lia.
    destruct (honest_equal HU a b A B s G NA NB) as (s' & H1 & H2). exists a, b, s, s'. split; [exact R|]. split; [exact G|]. split; [exact H1|]. rewrite H2, VA, VB. lia.
Qed.
