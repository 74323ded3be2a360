(** Packed equalities and sums of words. *)
From Coq Require Import String ZArith Bool List Lia Setoid Morphisms ZifyBool ZifyNat.
From Verif.Model Require Import Base Sha256 CS Bellpepper Util Poly Bignat ShaGadget.
From Verif.Spec Require Import Spec SpecSha.
From Verif.Proofs Require Import Field Arith Convert Limbs Wp Lc BitNum PolyP BoolP Ewp ShaBits ShaP ShaWords.
Import ListNotations.
Local Open Scope string_scope.
Local Open Scope Z_scope.
Local Open Scope list_scope.
Notation length := List.length (only parsing).

Section ShaAdd.
Context {E : Env} {W : Wf E}.

Notation total := (fold_right Z.add 0).

(** ** Which case applies *)
Definition add_alloc (q : meq) (ops : list u32) : prog (meq * u32) :=
  let result_value := option_map total (all_some (map u_val ops)) in
  let n := Z.to_nat (Z.log2 (Z.of_nat (length ops) * 4294967295) + 1) in
  let! bits := mapM (fun i =>
     let! b := ns (Nmi "result bit_gadget " i "") (ab_alloc (option_map (fun v => Z.testbit v (Z.of_nat i)) result_value)) in
     Ret (BIs b)) (seq 0 n) in
  let! q := mq_enforce_equal q n (flat_map (fun u => weighted (u_bits u)) ops) (weighted bits) in
  Ret (q, mkU32 (firstn 32 bits) (option_map w32 result_value)).

Lemma add_cases q ops : (2 <= length ops <= 10)%nat -> (64 <= NUM_BITS)%nat ->
  (exists vs, forallb (fun u => forallb is_constant (u_bits u)) ops = true /\ all_some (map u_val ops) = Some vs /\
     u_addmany q ops = Ret (q, u_constant (w32 (total vs)))) \/
  u_addmany q ops = add_alloc q ops.
Proof.
  intros H2 HN. unfold u_addmany, add_alloc.
  destruct (Nat.ltb_spec NUM_BITS 64); [lia|]. destruct (Nat.ltb_spec (length ops) 2); [lia|]. destruct (Nat.ltb_spec 10 (length ops)); [lia|].
  destruct (forallb _ ops) eqn:Ec; [|right; reflexivity].
  destruct (all_some (map u_val ops)) as [vs|] eqn:Ev; [|right; reflexivity].
  left. exists vs. auto.
Qed.
Lemma add_crash q ops : ~ ((2 <= length ops <= 10)%nat /\ (64 <= NUM_BITS)%nat) -> u_addmany q ops = Crash.
Proof.
  intros H. unfold u_addmany.
  destruct (Nat.ltb_spec NUM_BITS 64); auto. destruct (Nat.ltb_spec (length ops) 2); auto. destruct (Nat.ltb_spec 10 (length ops)); auto. lia.
Qed.

(** ** Every result *)
Definition all_is (bits : list Boolean) : Prop := Forall (fun b => exists a, b = BIs a) bits.
Lemma bits_rwp (f : nat -> option bool) n :
  rwp (mapM (fun i => let! b := ns (Nmi "result bit_gadget " i "") (ab_alloc (f i)) in Ret (BIs b)) (seq 0 n))
    (fun bits => length bits = n /\ all_is bits).
Proof.
  apply rwp_mapM with (R := fun _ b => exists a, b = BIs a).
  - intros i _. apply rwp_bind, rwp_ns. cbn. eauto.
  - intros bs H. split; [apply Forall2_length in H; now rewrite seq_length in H|].
    clear -H. induction H; constructor; auto.
Qed.
Lemma all_is_agrees bits v : all_is bits -> length bits = 32%nat -> 0 <= v < 2 ^ 32 -> wd agrees bits v.
Proof.
  intros H L Hv. split; [exact L|]. split; auto. intros i Hi. unfold all_is in H. rewrite Forall_forall in H.
  destruct (H (nth i bits bF)) as [a Ha]; [apply nth_In; lia|]. rewrite Ha. exact I.
Qed.
Lemma firstn_is n bits : all_is bits -> all_is (firstn n bits).
Proof. intros H. unfold all_is in *. rewrite Forall_forall in *. intros b Hb. apply H. eapply (In_nth _ _ bF) in Hb. destruct Hb as (i & Hi & <-). rewrite firstn_length in Hi. rewrite firstn_nth by lia. apply nth_In. lia. Qed.
Lemma mq_rwp q n l r (P : meq -> Prop) : (forall q', P q') -> rwp (mq_enforce_equal q n l r) P.
Proof.
  intros H. unfold mq_enforce_equal. apply rwp_bind.
  assert (G : forall q0, rwp (if (CAPACITY <=? mq_bits q0 + n)%nat then Crash else
      Ret (mkMeq (mq_ops q0) (mq_bits q0 + n) (lc_add (mq_lhs q0) (lc_scale (2 ^ Z.of_nat (mq_bits q0)) l))
        (lc_add (mq_rhs q0) (lc_scale (2 ^ Z.of_nat (mq_bits q0)) r)))) P).
  { intros q0. destruct (CAPACITY <=? mq_bits q0 + n)%nat; cbn; auto. }
  destruct (CAPACITY <=? mq_bits q + n)%nat; cbn [rwp]; auto. unfold mq_accumulate. cbn [rwp bind enforce]. auto.
Qed.

Lemma add_rwp q ops : rwp (u_addmany q ops) (fun p => agr (snd p)).
Proof.
  destruct (Nat.le_gt_cases 2 (length ops)) as [A|A]; [|rewrite add_crash by lia; exact I].
  destruct (Nat.le_gt_cases (length ops) 10) as [B|B]; [|rewrite add_crash by lia; exact I].
  destruct (Nat.le_gt_cases 64 NUM_BITS) as [C|C]; [|rewrite add_crash by lia; exact I].
  destruct (add_cases q ops) as [(vs & H1 & H2 & ->)| ->]; try lia.
  - cbn. apply agr_const, w32_range.
  - unfold add_alloc. apply rwp_bind. eapply rwp_mono; [apply bits_rwp|]. intros bits [L H].
    apply rwp_bind, mq_rwp. intros q'. cbn [rwp snd].
    pose proof (width_range (length ops) ltac:(lia)) as HW. 
    assert (L32 : length (firstn 32 bits) = 32%nat) by (rewrite firstn_length; lia).
    split; [exact L32|]. intros v Hv. cbn [u_bits u_val] in *. apply all_is_agrees; [now apply firstn_is|exact L32|].
    destruct (all_some (map u_val ops)); [|discriminate]. injection Hv as <-. apply w32_range.
Qed.

(** ** Satisfied constraints *)
Section Rho.
Context (rho : assignment) (one : rho ONE = 1).

Definition settled (q : meq) : Prop := eqp (lc_eval rho (mq_lhs q)) (lc_eval rho (mq_rhs q)).
Definition packed (q : meq) : Prop := (mq_bits q < CAPACITY)%nat /\ exists A B,
  0 <= A < 2 ^ Z.of_nat (mq_bits q) /\ 0 <= B < 2 ^ Z.of_nat (mq_bits q) /\
  eqp (lc_eval rho (mq_lhs q)) A /\ eqp (lc_eval rho (mq_rhs q)) B.

Lemma packed_zero k : (0 < CAPACITY)%nat -> packed (mkMeq k 0 lc_zero lc_zero).
Proof. intros H. split; [exact H|]. exists 0, 0. cbn. repeat split; try lia; reflexivity. Qed.

Lemma mq_acc_swp q : swp Any rho (mq_accumulate q) (fun q' => settled q /\ q' = mkMeq (S (mq_ops q)) 0 lc_zero lc_zero).
Proof.
  unfold mq_accumulate. cbn [bind enforce swp]. intros H. apply csat_R1 in H. rewrite lc_eval_var, one, Z.mul_1_r in H. auto.
Qed.
Lemma mq_eq_swp q n l r a b : (0 < CAPACITY)%nat -> packed q ->
  eqp (lc_eval rho l) a -> eqp (lc_eval rho r) b -> 0 <= a < 2 ^ Z.of_nat n -> 0 <= b < 2 ^ Z.of_nat n ->
  swp Any rho (mq_enforce_equal q n l r) (fun q' => packed q' /\ (settled q' -> settled q /\ a = b)).
Proof.
  intros HC Hq Hl Hr Ha Hb.
  assert (G : forall q0, packed q0 -> (settled q0 -> settled q) -> swp Any rho
     (if (CAPACITY <=? mq_bits q0 + n)%nat then Crash else
      Ret (mkMeq (mq_ops q0) (mq_bits q0 + n) (lc_add (mq_lhs q0) (lc_scale (2 ^ Z.of_nat (mq_bits q0)) l))
        (lc_add (mq_rhs q0) (lc_scale (2 ^ Z.of_nat (mq_bits q0)) r)))) (fun q' => packed q' /\ (settled q' -> settled q /\ a = b))).
  { intros q0 (H1 & A & B & HA & HB & EA & EB) HS. destruct (Nat.leb_spec CAPACITY (mq_bits q0 + n)); [exact I|].
    cbn [swp]. set (k := 2 ^ Z.of_nat (mq_bits q0)) in *.
    assert (EP : 2 ^ Z.of_nat (mq_bits q0 + n) = k * 2 ^ Z.of_nat n) by (rewrite Nat2Z.inj_add, Z.pow_add_r by lia; reflexivity).
    assert (HA' : 0 <= A + k * a < k * 2 ^ Z.of_nat n) by nia.
    assert (HB' : 0 <= B + k * b < k * 2 ^ Z.of_nat n) by nia.
    pose proof (capacity_bound _ H) as HM. rewrite EP in HM.
    split.
    - split; [exact H|]. exists (A + k * a), (B + k * b). cbn [mq_bits mq_lhs mq_rhs]. rewrite EP.
      split; [exact HA'|]. split; [exact HB'|]. rewrite !lc_eval_add, !lc_eval_scale, EA, EB, Hl, Hr. split; reflexivity.
    - unfold settled. cbn [mq_lhs mq_rhs]. rewrite !lc_eval_add, !lc_eval_scale, EA, EB, Hl, Hr. intros Heq.
      apply eqp_small in Heq; [|lia|lia]. assert (A = B /\ a = b) as [-> ->].
      { assert (a = b) by nia. split; [|exact H0]. subst b. lia. }
      split; auto. apply HS. unfold settled. rewrite EA, EB. reflexivity. }
  unfold mq_enforce_equal. destruct (Nat.leb_spec CAPACITY (mq_bits q + n)).
  - apply swp_bind. eapply swp_mono; [apply mq_acc_swp|]. intros q0 [Hs ->]. apply G; [now apply packed_zero|auto].
  - cbn [bind]. apply G; auto.
Qed.
Lemma mq_drop_swp q : packed q -> swp Any rho (mq_drop q) (fun _ => settled q).
Proof.
  intros (H1 & A & B & HA & HB & EA & EB). unfold mq_drop. destruct (Nat.ltb_spec 0 (mq_bits q)).
  - apply swp_bind. eapply swp_mono; [apply mq_acc_swp|]. cbn. tauto.
  - cbn [swp]. unfold settled. rewrite EA, EB. replace (mq_bits q) with 0%nat in * by lia. change (2 ^ Z.of_nat 0) with 1 in *.
    replace A with 0 by lia. replace B with 0 by lia. reflexivity.
Qed.

Lemma bits_swp (f : nat -> option bool) n :
  swp Any rho (mapM (fun i => let! b := ns (Nmi "result bit_gadget " i "") (ab_alloc (f i)) in Ret (BIs b)) (seq 0 n))
    (fun bits => exists bs, length bs = n /\ Forall2 (wire_bool rho) bits bs).
Proof.
  apply swp_mapM with (R := fun _ b => exists x, wire_bool rho b x).
  - intros i _. apply swp_bind, swp_ns. eapply swp_mono; [apply (ab_alloc_swp rho one)|]. intros r (_ & x & Hx & _). cbn. eauto.
  - intros bits H. assert (L : length bits = n) by (apply Forall2_length in H; now rewrite seq_length in H). subst n.
    revert H. generalize (seq 0 (length bits)). induction bits as [|b bits IH]; intros l H; inversion H; subst.
    + exists []. split; auto.
    + destruct H3 as [z Hx]. destruct (IH _ H4) as (bs & L & HB). exists (z :: bs). cbn. split; auto.
Qed.
Lemma low_word bits bs : (32 <= length bs)%nat -> Forall2 (wire_bool rho) bits bs ->
  wd (wire_bool rho) (firstn 32 bits) (w32 (bits_value bs)).
Proof.
  intros L H. pose proof (Forall2_length _ _ _ H) as L2. split; [rewrite firstn_length; lia|]. split; [apply w32_range|].
  intros i Hi. rewrite firstn_nth, w32_bit, bits_value_bit, Nat2Z.id by lia.
  assert (Hn : (i < length bs)%nat) by lia. clear -H Hn. revert i Hn. induction H; intros i Hn; [cbn in Hn; lia|].
  destruct i; cbn [nth]; auto. apply IHForall2. cbn in Hn. lia.
Qed.

Lemma add_swp q ops xs : packed q -> Forall agr ops -> Forall2 (fun u x => wd (wire_bool rho) (u_bits u) x) ops xs ->
  swp Any rho (u_addmany q ops) (fun p => packed (fst p) /\ (settled (fst p) -> settled q) /\
    exists x, wd (wire_bool rho) (u_bits (snd p)) x /\ (settled (fst p) -> x = w32 (total xs))).
Proof.
  intros Hq Ha Hw. pose proof (Forall2_length _ _ _ Hw) as Lx.
  destruct (Nat.le_gt_cases 2 (length ops)) as [A|A]; [|rewrite add_crash by lia; exact I].
  destruct (Nat.le_gt_cases (length ops) 10) as [B|B]; [|rewrite add_crash by lia; exact I].
  destruct (Nat.le_gt_cases 64 NUM_BITS) as [C|C]; [|rewrite add_crash by lia; exact I].
  assert (HC : (0 < CAPACITY)%nat) by (unfold CAPACITY; lia).
  destruct (add_cases q ops) as [(vs & H1 & H2 & ->)| ->]; try lia.
  - cbn [swp fst snd]. split; [exact Hq|]. split; [auto|]. exists (w32 (total vs)). split.
    + apply wd_const; [|apply w32_range]. intros c. now apply wire_const.
    + intros _. do 2 f_equal. eapply constants_value; eauto. intros c y. now apply wire_const.
  - unfold add_alloc. apply swp_bind. eapply swp_mono; [apply bits_swp|]. intros bits (bs & L & HB). cbv beta.
    pose proof (width_range (length ops) ltac:(lia)) as HW. set (n := Z.to_nat _) in *.
    assert (Hs : 0 <= total xs < 2 ^ Z.of_nat n).
    { apply sum_width; [lia|]. apply sum_range. clear -Hw. induction Hw; constructor; auto. apply H. }
    apply swp_bind. eapply swp_mono; [apply (mq_eq_swp q n _ _ (total xs) (bits_value bs)); auto|].
    + now apply sum_value.
    + now apply weighted_value.
    + rewrite <- L. apply bits_value_bound.
    + intros q' [Hq' Hst]. cbn [swp fst snd u_bits]. split; [exact Hq'|]. split; [intros; now apply Hst|].
      exists (w32 (bits_value bs)). split; [apply low_word; auto; lia|]. intros S. destruct (Hst S) as [_ ->]. reflexivity.
Qed.
End Rho.

(** ** What a prover achieves *)
Section Known.
Context (md : mode).
Definition balanced (R : known) (q : meq) : Prop := (mq_bits q < CAPACITY)%nat /\ forall rho, R rho -> settled rho q.
Lemma balanced_sub R R' q : sub R' R -> balanced R q -> balanced R' q.
Proof. intros Hs [H1 H2]. split; auto. Qed.
Lemma balanced_zero R k : (0 < CAPACITY)%nat -> balanced R (mkMeq k 0 lc_zero lc_zero).
Proof. intros H. split; [exact H|]. intros rho _. unfold settled. reflexivity. Qed.

Lemma mq_acc_ewp R q : ones R -> balanced R q -> ewp md R (mq_accumulate q) (fun R' q' => R' = R /\ q' = mkMeq (S (mq_ops q)) 0 lc_zero lc_zero).
Proof.
  intros Ho [_ H]. unfold mq_accumulate. cbn [bind enforce ewp]. split; auto.
  intros rho Hr. apply csat_R1. rewrite lc_eval_var, (Ho _ Hr), Z.mul_1_r. now apply H.
Qed.
Lemma mq_eq_ewp R q n l r : ones R -> (n < CAPACITY)%nat -> balanced R q ->
  (forall rho, R rho -> eqp (lc_eval rho l) (lc_eval rho r)) ->
  ewp md R (mq_enforce_equal q n l r) (fun R' q' => balanced R' q').
Proof.
  intros Ho Hn Hq Hl.
  assert (G : forall q0, (mq_bits q0 + n < CAPACITY)%nat -> balanced R q0 -> ewp md R
     (if (CAPACITY <=? mq_bits q0 + n)%nat then Crash else
      Ret (mkMeq (mq_ops q0) (mq_bits q0 + n) (lc_add (mq_lhs q0) (lc_scale (2 ^ Z.of_nat (mq_bits q0)) l))
        (lc_add (mq_rhs q0) (lc_scale (2 ^ Z.of_nat (mq_bits q0)) r)))) (fun R' q' => balanced R' q')).
  { intros q0 Hb [_ H]. destruct (Nat.leb_spec CAPACITY (mq_bits q0 + n)); [lia|]. cbn [ewp]. split; [exact Hb|].
    intros rho Hr. unfold settled. cbn [mq_lhs mq_rhs]. rewrite !lc_eval_add, !lc_eval_scale, (Hl _ Hr).
    specialize (H _ Hr). unfold settled in H. rewrite H. reflexivity. }
  unfold mq_enforce_equal. destruct (Nat.leb_spec CAPACITY (mq_bits q + n)).
  - apply ewp_bind. eapply ewp_mono; [apply mq_acc_ewp; auto|]. intros R' q0 _ [-> ->]. apply G; [cbn [mq_bits]; lia|]. apply balanced_zero. lia.
  - cbn [bind]. apply G; auto.
Qed.
Lemma mq_drop_ewp R q : ones R -> balanced R q -> ewp md R (mq_drop q) (fun R' _ => True).
Proof.
  intros Ho Hq. unfold mq_drop. destruct (0 <? mq_bits q)%nat; [|exact I].
  apply ewp_bind. eapply ewp_mono; [apply mq_acc_ewp; auto|]. cbn. auto.
Qed.

Lemma bits_ewp R (f : nat -> option bool) n v : ones R -> (md = Honest -> forall i, (i < n)%nat -> f i = Some (Z.testbit v (Z.of_nat i))) ->
  ewp md R (mapM (fun i => let! b := ns (Nmi "result bit_gadget " i "") (ab_alloc (f i)) in Ret (BIs b)) (seq 0 n))
    (fun R' bits => Forall2 (eb md R') bits (map (fun i => Z.testbit v (Z.of_nat i)) (seq 0 n))).
Proof.
  intros Ho Hh. apply ewp_mapM with (T := fun R i b => eb md R b (Z.testbit v (Z.of_nat i))).
  - intros R1 R2 i b Hs. now apply eb_sub.
  - intros i R' Hi Hs. apply in_seq in Hi. apply ewp_bind, ewp_ns.
    eapply ewp_mono; [apply (ab_alloc_ewp md _ _ (Z.testbit v (Z.of_nat i)))|].
    + eapply ones_sub; eauto.
    + intros Hm. apply Hh; auto. lia.
    + intros R2 r Hs2 [_ H]. exact H.
  - intros R' bits Hs H. clear -H. induction H; cbn [map]; constructor; auto.
Qed.

Lemma eb_low R bits s n : (32 <= n)%nat -> Forall2 (eb md R) bits (map (fun i => Z.testbit s (Z.of_nat i)) (seq 0 n)) ->
  wd (eb md R) (firstn 32 bits) (w32 s).
Proof.
  intros Hn H. pose proof (Forall2_length _ _ _ H) as L. rewrite map_length, seq_length in L.
  split; [rewrite firstn_length; lia|]. split; [apply w32_range|]. intros i Hi. rewrite firstn_nth, w32_bit by lia.
  assert (G : forall l bits i, Forall2 (eb md R) bits (map (fun i => Z.testbit s (Z.of_nat i)) l) -> (i < length l)%nat ->
     eb md R (nth i bits bF) (Z.testbit s (Z.of_nat (nth i l 0%nat)))).
  { clear. induction l as [|k l IH]; intros bits i H Hi; [cbn in Hi; lia|]. cbn [map] in H. inversion H; subst.
    destruct i; cbn [nth]; auto. apply IH; auto. cbn in Hi. lia. }
  specialize (G (seq 0 n) bits i H). rewrite seq_length in G. specialize (G ltac:(lia)). rewrite seq_nth in G by lia. exact G.
Qed.

Lemma wd_wire (R : known) bits x rho : R rho -> wd (eb md R) bits x -> wd (wire_bool rho) bits x.
Proof. intros Hr. apply wd_impl. intros b v [H _]. auto. Qed.

Lemma add_ewp R q ops xs : ones R -> (64 <= NUM_BITS)%nat -> (2 <= length ops <= 10)%nat -> balanced R q -> Forall agr ops ->
  Forall2 (fun u x => wd (eb md R) (u_bits u) x /\ (md = Honest -> u_val u = Some x)) ops xs ->
  ewp md R (u_addmany q ops) (fun R' p => balanced R' (fst p) /\
    wd (eb md R') (u_bits (snd p)) (w32 (total xs)) /\ (md = Honest -> u_val (snd p) = Some (w32 (total xs)))).
Proof.
  intros Ho HN HL Hq Ha Hw. pose proof (Forall2_length _ _ _ Hw) as Lx.
  assert (HV : md = Honest -> all_some (map u_val ops) = Some xs).
  { intros Hm. clear -Hw Hm. induction Hw as [|u x us xs [_ Hu] H IH]; auto. cbn [map all_some fold_right].
    fold (all_some (map u_val us)). now rewrite IH, (Hu Hm). }
  assert (Hwire : forall rho, R rho -> Forall2 (fun u x => wd (wire_bool rho) (u_bits u) x) ops xs).
  { intros rho Hr. clear -Hw Hr. induction Hw; constructor; auto. eapply wd_wire; [eauto|apply H]. }
  destruct (add_cases q ops) as [(vs & H1 & H2 & ->)| ->]; try lia.
  - cbn [ewp fst snd]. split; [exact Hq|].
    assert (HR : forall rho, R rho -> vs = xs).
    { intros rho Hr. eapply constants_value; eauto. intros c y. apply wire_const; auto. }
    assert (HH : md = Honest -> vs = xs) by (intros Hm; rewrite (HV Hm) in H2; congruence).
    split; [split; [reflexivity|split; [apply w32_range|]]|].
    + intros i Hi. rewrite constant_nth by auto. apply eb_intro_const; auto; intros; [rewrite (HR _ H)|rewrite (HH H)]; reflexivity.
    + intros Hm. now rewrite <- (HH Hm).
  - unfold add_alloc. pose proof (width_range (length ops) ltac:(lia)) as HW. set (n := Z.to_nat _) in *.
    assert (Hs : 0 <= total xs < 2 ^ Z.of_nat n).
    { apply sum_width; [lia|]. apply sum_range. clear -Hw. induction Hw; constructor; auto. apply H. }
    apply ewp_bind. eapply ewp_mono; [apply (bits_ewp R _ n (total xs)); auto|].
    + intros Hm i _. now rewrite (HV Hm).
    + intros R' bits Hsub HB. apply ewp_bind. eapply ewp_mono; [apply mq_eq_ewp|].
      * eapply ones_sub; eauto.
      * unfold CAPACITY. lia.
      * eapply balanced_sub; eauto.
      * intros rho Hr. rewrite (sum_value rho ops xs) by auto.
        rewrite (weighted_value rho bits (map (fun i => Z.testbit (total xs) (Z.of_nat i)) (seq 0 n))).
        -- rewrite testbits_value_0, Z.mod_small by lia. reflexivity.
        -- clear -HB Hr. induction HB; constructor; auto. now apply H.
      * intros R2 q' Hs2 Hq'. cbn [ewp fst snd u_bits u_val]. split; [exact Hq'|]. split.
        -- apply eb_low with (n := n); [lia|]. clear -HB Hs2. induction HB; constructor; auto. eapply eb_sub; eauto.
        -- intros Hm. now rewrite (HV Hm).
Qed.
End Known.
End ShaAdd.
