(** Programs of modular operations (C100): induction over the program. *)
From Coq Require Import String ZArith Znumtheory Bool List Lia Setoid Morphisms ZifyBool ZifyNat.
From Verif.Model Require Import Base CS Bellpepper Util Poly Bignat Gadget.
From Verif.Spec Require Import Spec SpecExpr SpecModular.
From Verif.Proofs Require Import Field Arith Convert Limbs Wp Lc BitNum PolyP BoolP BignatEq BignatAlloc Group Carry Regroup Mult MultC TopBits TopPoly TopBignat1 PureOps TopPure Owp Pwp
  TopBignat2 MuxP MedianP MinBits SubP Ewp Relation Expr.
Import ListNotations.
Local Open Scope Z_scope.

Lemma Forall2_snoc {A B} (R : A -> B -> Prop) l1 l2 a b : Forall2 R l1 l2 -> R a b -> Forall2 R (l1 ++ [a]) (l2 ++ [b]).
Proof. intros. apply Forall2_app; auto. Qed.
Lemma Forall_snoc {A} (R : A -> Prop) l a : Forall R l -> R a -> Forall R (l ++ [a]).
Proof. intros. rewrite Forall_app. auto. Qed.

Section Modular.
Context {E : Env} {W : Wf E}.
Context (w nm mb : nat) (mw : Z) (Hw : (1 <= w)%nat) (Hnm : (1 <= nm)%nat) (Hmw : 0 <= mw).
Notation X := (2 ^ Z.of_nat w).

Lemma op_shape_ok shs o : ins_ok shs -> op_room w nm mb mw shs o -> (1 <= fst (op_shape w nm shs o))%nat /\ 0 <= snd (op_shape w nm shs o).
Proof.
  intros HI HR. pose proof (pow2_pos w) as HX. destruct o as [i j|i j|i]; cbn [op_shape op_room fst snd] in *; try (split; [exact Hnm|lia]).
  destruct HR as (R1 & R2 & R3). destruct (in_nth shs HI i R1). destruct (in_nth shs HI j R2). lia.
Qed.
Lemma ins_snoc shs o : ins_ok shs -> op_room w nm mb mw shs o -> ins_ok (shs ++ [op_shape w nm shs o]).
Proof. intros HI HR. apply Forall_snoc; auto. now apply op_shape_ok. Qed.

(** ** What the calls return *)
Lemma swp_rets {A} md rho (m : prog A) : forall (P Q : A -> Prop), rets m P -> swp md rho m Q -> swp md rho m (fun a => P a /\ Q a).
Proof. induction m; simpl; eauto. Qed.

Lemma mult_mod_params a b m : (1 <= n_limbs (bparams a))%nat -> (1 <= n_limbs (bparams b))%nat -> limb_width (bparams a) = w ->
  rets (mult_mod a b m) (fun qr => bparams (snd qr) = params_new w (length (limbs m)) /\
    length (limbs (fst qr)) = q_limbs (n_bits_of a + n_bits_of b) (min_bits (bparams m)) w).
Proof.
  intros HA HB HWa. unfold mult_mod. unfold width_agreement. rewrite HWa.
  destruct (Nat.eqb_spec w (limb_width (bparams b))) as [HWb|]; [|exact I]. cbn [lift bind].
  rewrite (n_bits_ok a), (n_bits_ok b) by lia. cbn [lift bind].
  unfold quotient_limbs. rewrite (proj2 (Nat.eqb_neq w 0)) by lia. cbn [lift bind].
  apply rets_bind, rets_ns. eapply rets_mono; [apply rets_alloc_nat|]. cbv beta. intros q [_ Hq]. apply rets_skip. intros _.
  apply rets_bind, rets_ns. eapply rets_mono; [apply rets_alloc_nat|]. cbv beta. intros r [Hr _].
  do 3 (apply rets_skip; intros ?). cbv zeta. apply rets_skip. intros _. cbn [rets fst snd]. auto.
Qed.
Lemma red_mod_params a m : limb_width (bparams a) = w ->
  rets (red_mod a m) (fun r => bparams r = params_new w (length (limbs m))).
Proof.
  intros HWa. unfold red_mod. unfold width_agreement. rewrite HWa.
  destruct (Nat.eqb_spec w (limb_width (bparams m))) as [HWb|]; [|exact I]. cbn [lift bind].
  do 2 (apply rets_skip; intros ?). cbv zeta.
  do 2 (apply rets_skip; intros ?).
  apply rets_bind, rets_ns. eapply rets_mono; [apply rets_alloc_nat|]. cbv beta. intros r [Hr _].
  do 2 (apply rets_skip; intros ?). cbv zeta. apply rets_skip. intros _. exact Hr.
Qed.

(** ** Soundness *)
Section Sound.
Context (rho : assignment) (one : rho ONE = 1) (m : bignat).
Context (Sm : of_shape w (nm, mw) m) (Bm : bounded rho m) (Hmb : min_bits (bparams m) = mb).
Notation mv := (int_of rho m).

Lemma bits_same p b : of_shape w p b -> n_bits_of b = number_bits w p.
Proof. intros (H1 & H2 & H3 & H4). unfold n_bits_of, number_bits. now rewrite H1, H2, H4. Qed.

Definition residues (shs : list (nat * Z)) (xs : list bignat) (vs : list Z) : Prop :=
  Forall2 (of_shape w) shs xs /\ Forall (bounded rho) xs /\ Forall2 (fun x v => (mv | v - int_of rho x)) xs vs.

Lemma residues_nth shs xs vs i x : residues shs xs vs -> nth_error xs i = Some x ->
  of_shape w (nth i shs (0%nat, 0%Z)) x /\ bounded rho x /\ (mv | nth i vs 0 - int_of rho x).
Proof.
  intros (H1 & H2 & H3) Hi. split; [eapply Forall2_nth_error; eauto|]. split.
  - rewrite Forall_forall in H2. apply H2. eapply nth_error_In; eauto.
  - exact (Forall2_nth_error _ _ _ (Forall2_turn _ _ _ H3) i x 0 Hi).
Qed.

Lemma op_swp md shs xs vs o : ins_ok shs -> residues shs xs vs -> op_room w nm mb mw shs o ->
  swp md rho (do_op m xs o) (fun r => of_shape w (op_shape w nm shs o) r /\ bounded rho r /\ (mv | op_value vs o - int_of rho r)).
Proof.
  intros HI HS HR. destruct Sm as (M1 & M2 & M3 & M4). cbn [fst snd] in *. pose proof Bm as Bm'. apply bounded_in_word in Bm'.
  destruct o as [i j|i j|i]; cbn [op_room do_op] in *.
  - destruct HR as (R1 & R2 & R3 & R4 & R5 & R6).
    destruct (nth_error xs i) as [x|] eqn:Ex; [|exact I]. destruct (nth_error xs j) as [y|] eqn:Ey; [|exact I].
    destruct (residues_nth _ _ _ _ _ HS Ex) as (SX & XB & XV). destruct (residues_nth _ _ _ _ _ HS Ey) as (SY & YB & YV).
    pose proof (bits_same _ _ SX) as NX. pose proof (bits_same _ _ SY) as NY.
    destruct (in_nth shs HI i R1) as [PX1 PX2]. destruct (in_nth shs HI j R2) as [PY1 PY2].
    destruct SX as (X1 & X2 & X3 & X4), SY as (Y1 & Y2 & Y3 & Y4).
    apply bounded_in_word in XB, YB. apply swp_bind.
    pose proof (mult_mod_swp rho one md x y m _ _ _ (ev_wires rho (limbs x)) (ev_wires rho (limbs y)) (ev_wires rho (limbs m)) XB YB Bm') as K.
    cbv zeta in K. rewrite !wires_length, X1, X3, Y3, M3 in K.
    assert (HN : Z.of_nat (fst (nth i shs (0%nat, 0%Z)) + fst (nth j shs (0%nat, 0%Z)) - 1) < modulus) by lia. specialize (K HN).
    eapply swp_mono; [exact (swp_rets md rho _ _ _ (mult_mod_params x y m ltac:(lia) ltac:(lia) X1) K)|].
    cbv beta. intros [q r] [[P1 P2] K']. cbn [fst snd] in *. cbn [swp].
    rewrite NX, NY, Hmb in P2. unfold mod_word in K'. rewrite P2, X3, Y3, M3, X4, Y4, M4 in K'.
    assert (HQ : Z.of_nat (q_limbs (number_bits w (nth i shs (0%nat, 0%Z)) + number_bits w (nth j shs (0%nat, 0%Z))) mb w + nm - 1) < modulus).
    { cbn [quot_limbs] in R4. lia. }
    destruct (K' HQ R5) as (K1 & K2 & K3 & K4 & K5 & K6 & K7).
    split; [|split].
    + split; auto. cbn [op_shape fst snd]. rewrite P1, params_word, M3. cbn [params_new n_limbs]. auto.
    + apply bounded_in_word. eapply range_in_word; [exact P1|exact K6].
    + cbn [op_value].
      assert (HV : int_of rho x * int_of rho y = int_of rho q * mv + int_of rho r).
      { unfold int_of at 1 2 4. rewrite X1, Y1, M1. exact K7. }
      replace (nth i vs 0 * nth j vs 0 - int_of rho r) with
        ((nth i vs 0 - int_of rho x) * nth j vs 0 + (nth j vs 0 - int_of rho y) * int_of rho x + int_of rho q * mv) by nia.
      apply Z.divide_add_r; [apply Z.divide_add_r; apply Z.divide_mul_l; auto|]. apply Z.divide_factor_r.
  - destruct HR as (R1 & R2 & R3).
    destruct (nth_error xs i) as [x|] eqn:Ex; [|exact I]. destruct (nth_error xs j) as [y|] eqn:Ey; [|exact I].
    destruct (residues_nth _ _ _ _ _ HS Ex) as (SX & XB & XV). destruct (residues_nth _ _ _ _ _ HS Ey) as (SY & YB & YV).
    destruct (in_nth shs HI i R1) as [PX1 PX2]. destruct (in_nth shs HI j R2) as [PY1 PY2].
    destruct SX as (X1 & X2 & X3 & X4), SY as (Y1 & Y2 & Y3 & Y4). apply bounded_in_word in XB, YB.
    apply swp_lift. intros c Hc. destruct (add_inv _ _ _ Hc) as (C1 & C2 & C3); [congruence|congruence|].
    rewrite <- X4 in PX2, R3. rewrite <- Y4 in PY2, R3.
    pose proof (rsum_word _ _ _ _ XB YB PX2 PY2) as HSm.
    assert (HC : wires rho (limbs c) = rsum (wires rho (limbs x)) (wires rho (limbs y))).
    { apply ev_canon; [apply C3; apply ev_wires|]. eapply bounded_canon; eauto. }
    split; [|split].
    + cbn [op_shape]. split; [rewrite C2; exact X1|]. split; [rewrite C2; cbn [add_params n_limbs fst]; congruence|].
      split; [|rewrite C2; cbn [add_params max_word snd]; congruence].
      rewrite <- (wires_length rho), HC, rsum_length, !wires_length. cbn [fst]. congruence.
    + apply bounded_in_word. unfold in_word. rewrite HC, C2. exact HSm.
    + assert (HV : int_of rho c = int_of rho x + int_of rho y).
      { unfold int_of. rewrite HC, rsum_value, C2. cbn [add_params limb_width]. now rewrite C1. }
      cbn [op_value]. rewrite HV. replace (_ - _) with ((nth i vs 0 - int_of rho x) + (nth j vs 0 - int_of rho y)) by ring.
      now apply Z.divide_add_r.
  - destruct HR as (R1 & R2 & R3 & R4).
    destruct (nth_error xs i) as [x|] eqn:Ex; [|exact I].
    destruct (residues_nth _ _ _ _ _ HS Ex) as (SX & XB & XV). pose proof (bits_same _ _ SX) as NX.
    destruct (in_nth shs HI i R1) as [PX1 PX2]. destruct SX as (X1 & X2 & X3 & X4). apply bounded_in_word in XB.
    pose proof (red_mod_swp rho one md x m _ _ (ev_wires rho (limbs x)) (ev_wires rho (limbs m)) XB Bm') as K.
    cbv zeta in K. rewrite !wires_length, X1, X2, X4, M3, M4, Hmb in K.
    match type of K with ?H -> _ => assert (HQ : H) end.
    { intros ql Hq. unfold quotient_limbs in Hq. destruct (Nat.eqb_spec w 0); [discriminate|].
      assert (Eq : ql = quot_limbs w mb shs (ORed i)) by (cbn [quot_limbs]; unfold number_bits, q_limbs; congruence).
      rewrite Eq. split; [clear -R2 Hnm; lia|exact R3]. }
    eapply swp_mono; [exact (swp_rets md rho _ _ _ (red_mod_params x m X1) (K HQ))|].
    cbv beta. intros r [P1 (K1 & K2 & K3 & K4 & q & K5 & K6)].
    split; [|split].
    + split; auto. cbn [op_shape fst snd]. rewrite P1, params_word, M3. cbn [params_new n_limbs]. auto.
    + apply bounded_in_word. eapply range_in_word; [exact P1|exact K4].
    + cbn [op_value].
      assert (HV : int_of rho x = q * mv + int_of rho r).
      { unfold int_of at 1 2. rewrite X1, M1. exact K6. }
      replace (_ - _) with ((nth i vs 0 - int_of rho x) + q * mv) by lia.
      apply Z.divide_add_r; auto. apply Z.divide_factor_r.
Qed.

Lemma program_swp md ops : forall shs xs vs, ins_ok shs -> residues shs xs vs -> program_room w nm mb mw shs ops ->
  swp md rho (program m xs ops) (fun zs => residues (grow (op_shape w nm) shs ops) zs (grow op_value vs ops)).
Proof.
  induction ops as [|o ops IH]; intros shs xs vs HI HS HR; cbn [program grow program_room] in *; [exact HS|].
  destruct HR as [HR1 HR2]. apply swp_bind, swp_ns. eapply swp_mono; [now apply (op_swp md shs xs vs o)|].
  cbv beta. intros r (H1 & H2 & H3). apply IH; auto; [now apply ins_snoc|].
  destruct HS as (S1 & S2 & S3). split; [now apply Forall2_snoc|]. split; [now apply Forall_snoc|]. now apply Forall2_snoc.
Qed.
End Sound.

(** ** Completeness *)
Section Complete.
Context (HwN : (w < NUM_BITS)%nat) (Mm : list Z) (LM : length Mm = nm) (CM : Forall canon Mm).
Notation mz := (value_of X Mm).
Context (HM : 0 < mz <= 2 ^ Z.of_nat (w * nm)).

Definition hold (p : nat * Z) (A : list Z) : Prop :=
  length A = fst p /\ Forall (fun v => 0 <= v <= snd p) A /\ Forall canon A.
Notation vals As := (map (value_of X) As).

Definition op_limbs (As : list (list Z)) (o : op) : list Z :=
  match o with
  | OMul _ _ | ORed _ => map (digit w (op_reduced mz (vals As) o)) (seq 0 nm)
  | OAdd i j => rsum (nth i As []) (nth j As [])
  end.
Definition op_quot (shs : list (nat * Z)) (As : list (list Z)) (o : op) : list Z :=
  map (digit w (op_value (vals As) o / mz)) (seq 0 (quot_limbs w mb shs o)).
Definition op_wires (shs : list (nat * Z)) (As : list (list Z)) (o : op) : list Z :=
  let M := op_word w nm mb mw shs o in
  let Q := op_quot shs As o in
  let R := op_limbs As o in
  match o with
  | OMul i j => (range_aux w Q ++ range_aux w R ++ mod_aux w M (convs (nth i As []) (nth j As [])) (convs Q Mm) R) ++ []
  | OAdd _ _ => []
  | ORed i => range_aux w Q ++ range_aux w R ++ convs Q Mm ++ regroup_aux M w (nth i As []) (rsum (convs Q Mm) R)
  end.
Fixpoint program_wires (shs : list (nat * Z)) (As : list (list Z)) (ops : list op) : list Z :=
  match ops with
  | [] => []
  | o :: ops => op_wires shs As o ++ program_wires (shs ++ [op_shape w nm shs o]) (As ++ [op_limbs As o]) ops
  end.

Lemma vals_nth As i : nth i (vals As) 0 = value_of X (nth i As []).
Proof. change 0 with (value_of X []) at 1. apply map_nth. Qed.
Lemma hold_nth shs As i : Forall2 hold shs As -> (i < length shs)%nat -> hold (nth i shs (0%nat, 0%Z)) (nth i As []).
Proof.
  intros H Hi. destruct (Forall2_nth_ex _ _ _ H i (0%nat, 0%Z) Hi) as (A & EA & HA). now rewrite (nth_error_nth _ _ [] EA).
Qed.
Lemma value_nonneg p A : hold p A -> 0 <= value_of X A.
Proof. intros (_ & _ & H). apply value_of_nonneg; [pose proof (pow2_pos w); lia|]. now apply canons_nonneg. Qed.
Lemma width_modulus : X - 1 < modulus.
Proof. pose proof CAPACITY_lt as HC. assert (Hle : (w <= CAPACITY)%nat) by (unfold CAPACITY; lia). pose proof (pow2_le _ _ Hle). lia. Qed.

Lemma op_value_nonneg shs As o : Forall2 hold shs As -> op_room w nm mb mw shs o -> 0 <= op_value (vals As) o.
Proof.
  intros HA HR. destruct o as [i j|i j|i]; cbn [op_room op_value] in *; rewrite !vals_nth.
  - destruct HR as (R1 & R2 & _). apply Z.mul_nonneg_nonneg; eapply value_nonneg, hold_nth; eauto.
  - destruct HR as (R1 & R2 & _). pose proof (value_nonneg _ _ (hold_nth _ _ _ HA R1)). pose proof (value_nonneg _ _ (hold_nth _ _ _ HA R2)). lia.
  - destruct HR as (R1 & _). eapply value_nonneg, hold_nth; eauto.
Qed.

Lemma op_facts shs As o : ins_ok shs -> Forall2 hold shs As -> op_room w nm mb mw shs o ->
  hold (op_shape w nm shs o) (op_limbs As o) /\ value_of X (op_limbs As o) = op_reduced mz (vals As) o.
Proof.
  intros HI HA HR. pose proof width_modulus as HwM. pose proof (op_value_nonneg _ _ _ HA HR) as H0.
  assert (HD : forall v, 0 <= v < mz -> hold (nm, X - 1) (map (digit w v) (seq 0 nm)) /\ value_of X (map (digit w v) (seq 0 nm)) = v).
  { intros v Hv. destruct (digits_facts w nm v ltac:(lia)) as (L & R & V). split; [|exact V]. split; [exact L|]. split; [|now apply (range_canon w)].
    eapply Forall_impl; [|exact R]. cbn [snd]. cbv beta. lia. }
  destruct o as [i j|i j|i]; cbn [op_limbs op_shape].
  - apply HD. apply Z.mod_pos_bound. lia.
  - cbn [op_room] in HR. destruct HR as (R1 & R2 & R3). destruct (hold_nth _ _ _ HA R1) as (L1 & B1 & _). destruct (hold_nth _ _ _ HA R2) as (L2 & B2 & _).
    destruct (in_nth shs HI i R1) as [_ P1]. destruct (in_nth shs HI j R2) as [_ P2].
    pose proof (rsum_bound _ _ _ _ P1 P2 B1 B2) as HB. split.
    + split; [rewrite rsum_length; cbn [fst]; congruence|]. split; [exact HB|]. cbn [snd] in HB. eapply bounded_canon; [|exact HB]; lia.
    + cbn [op_reduced]. now rewrite rsum_value, !vals_nth.
  - apply HD. apply Z.mod_pos_bound. lia.
Qed.

Section Rho.
Context (rho : assignment) (one : rho ONE = 1) (md : mode) (m : bignat).
Context (Sm : of_shape w (nm, mw) m) (Im : is_bn rho md m Mm) (Wm : in_word m Mm) (Hmb : min_bits (bparams m) = mb).

Lemma op_awp shs As xs o : ins_ok shs -> Forall2 hold shs As -> Forall2 (of_shape w) shs xs -> Forall2 (is_bn rho md) xs As ->
  op_room w nm mb mw shs o -> op_fits w nm mb mw mz shs (vals As) o ->
  awp md rho (do_op m xs o) (op_wires shs As o) (fun r => of_shape w (op_shape w nm shs o) r /\ is_bn rho md r (op_limbs As o)).
Proof.
  intros HI HA HX HB HR HF. pose proof (op_value_nonneg _ _ _ HA HR) as P0.
  destruct (op_facts _ _ _ HI HA HR) as [HL HV]. pose proof (pow2_pos w) as HXp.
  destruct Sm as (M1 & M2 & M3 & M4). cbn [fst snd] in M2, M3, M4.
  assert (HG : forall i, (i < length shs)%nat -> exists x, nth_error xs i = Some x /\ of_shape w (nth i shs (0%nat, 0%Z)) x /\
     is_bn rho md x (nth i As []) /\ in_word x (nth i As [])).
  { intros i Hi. destruct (Forall2_nth_ex _ _ _ HX i (0%nat, 0%Z) Hi) as (x & Ex & Sx). exists x. split; auto. split; auto.
    split; [exact (Forall2_nth_error _ _ _ (Forall2_turn _ _ _ HB) i x [] Ex)|].
    unfold in_word. destruct Sx as (_ & _ & _ & ->). apply (hold_nth _ _ _ HA Hi). }
  destruct o as [i j|i j|i]; cbn [op_room op_fits do_op op_wires] in *.
  - destruct HR as (R1 & R2 & R3 & R4 & R5 & R6), HF as (F1 & F2).
    destruct (HG i R1) as (x & -> & SX & IX & WX). destruct (HG j R2) as (y & -> & SY & IY & WY).
    pose proof (bits_same _ _ SX) as NX. pose proof (bits_same _ _ SY) as NY.
    destruct (in_nth shs HI i R1) as [PX1 PX2]. destruct (in_nth shs HI j R2) as [PY1 PY2].
    destruct (hold_nth _ _ _ HA R1) as (LX & BX & CX). destruct (hold_nth _ _ _ HA R2) as (LY & BY & CY).
    destruct SX as (X1 & X2 & X3 & X4), SY as (Y1 & Y2 & Y3 & Y4).
    set (M := op_word w nm mb mw shs (OMul i j)) in *. set (ql := quot_limbs w mb shs (OMul i j)) in *.
    set (P := op_value (vals As) (OMul i j)) in *. set (Q := op_quot shs As (OMul i j)) in *. set (R := op_limbs As (OMul i j)) in *.
    pose proof (Z.div_pos P mz P0 ltac:(lia)) as Hdiv. pose proof (Z.mod_pos_bound P mz ltac:(lia)) as Hmod.
    destruct (digits_facts w ql (P / mz) ltac:(lia)) as (LQ & RQ & VQ). fold P ql in Q. change (map _ _) with Q in LQ, RQ, VQ.
    destruct (digits_facts w nm (P mod mz) ltac:(lia)) as (LR & RR & VR). change (map (digit w (P mod mz)) (seq 0 nm)) with R in LR, RR, VR.
    assert (HE : P = value_of X Q * mz + value_of X R) by (rewrite VQ, VR; pose proof (Z.div_mod P mz); lia).
    assert (HP : P = value_of X (nth i As []) * value_of X (nth j As [])) by (unfold P; cbn [op_value]; now rewrite !vals_nth).
    pose proof (mult_mod_awp rho one md x y m (nth i As []) (nth j As []) Mm Q R) as K. cbv zeta in K. unfold mod_word in K.
    rewrite X1, X3, Y3, M3, X4, Y4, M4, LQ in K. change (Z.max _ _) with M in K.
    rewrite NX, NY, Hmb in K.
    apply awp_bind. eapply awp_mono; [apply K; clear K; auto; try lia|].
    + apply (sides_zero_fits _ _ _ _ P); [apply R6|rewrite convs_length; lia| |..].
      * rewrite rsum_length, convs_length. lia.
      * apply convs_nonneg; now apply canons_nonneg.
      * apply rsum_nonneg; [apply convs_nonneg|]; try (eapply ranges_nonneg; eassumption); now apply canons_nonneg.
      * rewrite HP. apply convs_value.
      * rewrite rsum_value, convs_value. symmetry. exact HE.
      * rewrite rsum_length, !convs_length, LQ, LR, LX, LY, LM. exact F2.
    + cbv beta. intros [q r] (_ & K2 & _ & K4 & _ & K6). cbn [fst snd] in *. cbn [awp]. split; auto. split; auto.
      eapply shaped_of; [exact K2|rewrite K6; reflexivity|exact LR|rewrite K6; apply params_word].
  - destruct HR as (R1 & R2 & R3).
    destruct (HG i R1) as (x & -> & SX & IX & WX). destruct (HG j R2) as (y & -> & SY & IY & WY).
    destruct SX as (X1 & X2 & X3 & X4), SY as (Y1 & Y2 & Y3 & Y4). destruct HL as (L1 & L2 & L3).
    destruct (is_bn_add rho md x y _ _ IX IY) as (c & H1 & H2 & H3); [congruence|exact L3|].
    eapply awp_lift; [exact H1|]. split; [|exact H3]. eapply shaped_of; [exact H3|rewrite H2; exact X1|exact L1|].
    rewrite H2. cbn [add_params max_word]. congruence.
  - destruct HR as (R1 & R2 & R3 & R4), HF as (F1 & F2).
    destruct (HG i R1) as (x & -> & SX & IX & WX). pose proof (bits_same _ _ SX) as NX.
    destruct (in_nth shs HI i R1) as [PX1 PX2]. destruct (hold_nth _ _ _ HA R1) as (LX & BX & CX). destruct SX as (X1 & X2 & X3 & X4).
    set (M := op_word w nm mb mw shs (ORed i)) in *. set (ql := quot_limbs w mb shs (ORed i)) in *.
    set (P := op_value (vals As) (ORed i)) in *. set (Q := op_quot shs As (ORed i)) in *. set (R := op_limbs As (ORed i)) in *.
    pose proof (Z.div_pos P mz P0 ltac:(lia)) as Hdiv. pose proof (Z.mod_pos_bound P mz ltac:(lia)) as Hmod.
    destruct (digits_facts w ql (P / mz) ltac:(lia)) as (LQ & RQ & VQ). change (map _ _) with Q in LQ, RQ, VQ.
    destruct (digits_facts w nm (P mod mz) ltac:(lia)) as (LR & RR & VR). change (map (digit w (P mod mz)) (seq 0 nm)) with R in LR, RR, VR.
    assert (HE : P = value_of X Q * mz + value_of X R) by (rewrite VQ, VR; pose proof (Z.div_mod P mz); lia).
    assert (HP : P = value_of X (nth i As [])) by (unfold P; cbn [op_value]; now rewrite !vals_nth).
    pose proof (red_mod_awp rho one md x m (nth i As []) Mm Q R) as K. cbv zeta in K.
    rewrite X1, X4, M4, LQ, LM in K. change (Z.max _ _) with M in K. rewrite NX, Hmb in K.
    eapply awp_mono; [apply K; clear K; auto; try lia|].
    + apply (sides_zero_fits _ _ _ _ P); [apply R4|lia| |..].
      * rewrite rsum_length, convs_length. lia.
      * now apply canons_nonneg.
      * apply rsum_nonneg; [apply convs_nonneg|]; try (eapply ranges_nonneg; eassumption); now apply canons_nonneg.
      * now symmetry.
      * rewrite rsum_value, convs_value. symmetry. exact HE.
      * rewrite rsum_length, !convs_length, LQ, LR, LX, LM. exact F2.
    + cbv beta. intros r (K2 & K4 & K6). split; auto.
      eapply shaped_of; [exact K2|rewrite K6; reflexivity|exact LR|rewrite K6; apply params_word].
Qed.

Lemma program_awp ops : forall shs As xs, ins_ok shs -> Forall2 hold shs As -> Forall2 (of_shape w) shs xs -> Forall2 (is_bn rho md) xs As ->
  program_room w nm mb mw shs ops -> program_fits w nm mb mw mz shs (vals As) ops ->
  awp md rho (program m xs ops) (program_wires shs As ops)
    (fun zs => Forall2 (of_shape w) (grow (op_shape w nm) shs ops) zs /\ Forall2 (is_bn rho md) zs (grow op_limbs As ops)).
Proof.
  induction ops as [|o ops IH]; intros shs As xs HI HA HX HB HR HF; cbn [program program_wires program_room program_fits grow] in *.
  - split; auto.
  - destruct HR as [R1 R2], HF as [F1 F2]. destruct (op_facts _ _ _ HI HA R1) as [HL HV].
    apply awp_bind, awp_ns. eapply awp_mono; [now apply op_awp|]. cbv beta. intros r [H1 H2].
    apply IH; auto; try (now apply Forall2_snoc); [now apply ins_snoc|].
    rewrite map_app. cbn [map]. rewrite HV. exact F2.
Qed.
End Rho.

Lemma program_facts ops : forall shs As, ins_ok shs -> Forall2 hold shs As -> program_room w nm mb mw shs ops ->
  Forall2 hold (grow (op_shape w nm) shs ops) (grow op_limbs As ops) /\ vals (grow op_limbs As ops) = grow (op_reduced mz) (vals As) ops.
Proof.
  induction ops as [|o ops IH]; intros shs As HI HA HR; cbn [program_room grow] in *; [auto|].
  destruct HR as [R1 R2]. destruct (op_facts _ _ _ HI HA R1) as [HL HV].
  destruct (IH (shs ++ [op_shape w nm shs o]) (As ++ [op_limbs As o])) as [I1 I2]; auto; [now apply ins_snoc|now apply Forall2_snoc|].
  split; auto. rewrite I2, map_app. cbn [map]. now rewrite HV.
Qed.
End Complete.

(** ** Final forms *)
Lemma top_program_value wit m shs xs ops s zs s' rho :
  run wit (program m xs ops) s = (Ok zs, s') -> sat rho s' ->
  of_shape w (nm, mw) m -> bounded rho m -> min_bits (bparams m) = mb ->
  ins_ok shs -> Forall2 (of_shape w) shs xs -> Forall (bounded rho) xs -> program_room w nm mb mw shs ops ->
  Forall2 (of_shape w) (grow (op_shape w nm) shs ops) zs /\ Forall (bounded rho) zs /\
  Forall2 (fun z v => (int_of rho m | v - int_of rho z)) zs (grow op_value (map (int_of rho) xs) ops).
Proof.
  intros Hr Hs Sm Bm Hmb HI HX HB HR.
  refine (swp_run_any _ _ _ _ _ _ _ Hr Hs (program_swp rho (proj1 Hs) m Sm Bm Hmb Any ops shs xs (map (int_of rho) xs) HI _ HR)).
  split; auto. split; auto. clear. induction xs; constructor; auto. rewrite Z.sub_diag. apply Z.divide_0_r.
Qed.

Section Top.
Context (HwN : (w < NUM_BITS)%nat).

Lemma holds_of rho md shs xs As : Forall2 (of_shape w) shs xs -> Forall2 (fun x A => is_bn rho md x A /\ in_word x A) xs As ->
  Forall2 hold shs As /\ Forall2 (is_bn rho md) xs As.
Proof.
  intros HX HA. split.
  - revert As HA. induction HX as [|p x shs xs (S1 & S2 & S3 & S4) _ IH]; intros As HA; inversion HA as [|? A ? As' [(I1 & I2 & I3 & I4 & _) I6] HA']; subst; constructor; auto.
    split; [congruence|]. split; auto. rewrite <- S4. exact I6.
  - clear HX. induction HA as [|x A xs As [H _] _ IH]; constructor; auto.
Qed.

Lemma top_program_complete m shs xs Mm As ops s :
  let vs := map (value_of X) As in
  let mz := value_of X Mm in
  good s -> of_shape w (nm, mw) m -> bignat_at s m Mm -> min_bits (bparams m) = mb -> 0 < mz <= 2 ^ Z.of_nat (w * nm) ->
  ins_ok shs -> Forall2 (of_shape w) shs xs -> Forall2 (bignat_at s) xs As ->
  program_room w nm mb mw shs ops -> program_fits w nm mb mw mz shs vs ops ->
  exists zs s' Zs, run true (program m xs ops) s = (Ok zs, s') /\ good s' /\
    Forall2 (of_shape w) (grow (op_shape w nm) shs ops) zs /\ Forall2 (bignat_at s') zs Zs /\
    map (value_of X) Zs = grow (op_reduced mz) vs ops.
Proof.
  intros vs mz G Sm Hm Hmb HM HI HX HA HR HF.
  assert (KX : forall rho, agree s rho -> rho ONE = 1 -> Forall2 (fun x A => is_bn rho Honest x A /\ in_word x A) xs As).
  { intros rho Ha one. clear -HA Ha one W. induction HA; constructor; auto. eapply bignat_at_is; eauto. }
  pose proof (agree_asg s) as A0. pose proof (proj1 (G _ A0)) as O0.
  destruct (holds_of _ _ _ _ _ HX (KX _ A0 O0)) as [HH _].
  destruct (bignat_at_is _ _ _ _ Hm A0 O0) as [(Em & _ & Nm0 & Cm & _) _].
  assert (LM : length Mm = nm) by (destruct Sm as (_ & S2 & _); cbn [fst] in S2; congruence).
  destruct (honest_run (program m xs ops) s (program_wires Mm shs As ops)
    (fun rho zs => Forall2 (of_shape w) (grow (op_shape w nm) shs ops) zs /\ Forall2 (is_bn rho Honest) zs (grow (op_limbs Mm) As ops)) G) as (zs & s' & H1 & H2 & H3 & H4).
  { intros rho Ha one. destruct (holds_of _ _ _ _ _ HX (KX _ Ha one)) as [_ HB]. destruct (bignat_at_is _ _ _ _ Hm Ha one) as [Im Wm].
    now apply program_awp. }
  destruct (program_facts HwN Mm LM HM ops shs As HI HH HR) as [F1 F2].
  exists zs, s', (grow (op_limbs Mm) As ops). split; auto. split; auto.
  destruct (H4 _ (agree_asg s')) as [S _]. split; [exact S|]. split; [|exact F2].
  assert (K : forall rho, agree s' rho -> Forall2 (is_bn rho Honest) zs (grow (op_limbs Mm) As ops)) by (intros rho Ha; apply (H4 rho Ha)).
  revert F1 S K. generalize (grow (op_shape w nm) shs ops) (grow (op_limbs Mm) As ops). clear -H2 W. intros shs As F1. revert zs.
  induction F1 as [|p A shs As (L1 & L2 & L3) _ IH]; intros zs S K; inversion S as [|? z ? zs' S1 S']; subst; constructor.
  - assert (K1 : forall rho, agree s' rho -> is_bn rho Honest z A) by (intros rho Ha; specialize (K rho Ha); now inversion K).
    destruct (K1 _ (agree_asg s')) as (_ & _ & N & _ & V). destruct (V eq_refl) as [V1 V2].
    apply mk_bignat_at; auto.
    + intros rho Ha _. apply (K1 rho Ha).
    + unfold in_word. destruct S1 as (_ & _ & _ & ->). auto.
  - apply IH; auto. intros rho Ha. specialize (K rho Ha). now inversion K.
Qed.

Lemma top_program_any wit m shs xs Mm As ops s rho0 zs s' :
  let vs := map (value_of X) As in
  let mz := value_of X Mm in
  good_for rho0 s -> of_shape w (nm, mw) m -> bignat_for rho0 s m Mm -> min_bits (bparams m) = mb -> 0 < mz <= 2 ^ Z.of_nat (w * nm) ->
  ins_ok shs -> Forall2 (of_shape w) shs xs -> Forall2 (bignat_for rho0 s) xs As ->
  run wit (program m xs ops) s = (Ok zs, s') ->
  program_room w nm mb mw shs ops -> program_fits w nm mb mw mz shs vs ops ->
  exists rho, same_on s rho rho0 /\ sat rho s' /\ map (int_of rho) zs = grow (op_reduced mz) vs ops.
Proof.
  intros vs mz G Sm Hm Hmb HM HI HX HA Hr HR HF.
  assert (KX : forall rho, same_on s rho rho0 -> rho ONE = 1 -> Forall2 (fun x A => is_bn rho (md_of wit) x A /\ in_word x A) xs As).
  { intros rho Hs one. clear -HA Hs one G W. induction HA; constructor; auto. eapply bignat_for_is; eauto. }
  pose proof (same_on_refl s rho0) as A0. pose proof (proj1 (here s rho0 G)) as O0.
  destruct (holds_of _ _ _ _ _ HX (KX _ A0 O0)) as [HH _].
  destruct (bignat_for_is _ _ _ _ _ wit G Hm A0 O0) as [(Em & _ & Nm0 & Cm & _) _].
  assert (LM : length Mm = nm) by (destruct Sm as (_ & S2 & _); cbn [fst] in S2; congruence).
  destruct (program_facts HwN Mm LM HM ops shs As HI HH HR) as [F1 F2].
  destruct (awp_run wit (program m xs ops) s rho0 (program_wires Mm shs As ops)
    (fun rho zs => Forall2 (of_shape w) (grow (op_shape w nm) shs ops) zs /\ Forall2 (is_bn rho (md_of wit)) zs (grow (op_limbs Mm) As ops)) zs s' G) with (2 := Hr) as (rho & H1 & H2 & H3).
  { intros rho Hs one. destruct (holds_of _ _ _ _ _ HX (KX _ Hs one)) as [_ HB]. destruct (bignat_for_is _ _ _ _ _ wit G Hm Hs one) as [Im Wm].
    now apply program_awp. }
  exists rho. split; auto. split; [apply H2, same_on_refl|]. destruct (H3 rho (same_on_refl _ _)) as [S K].
  etransitivity; [|exact F2]. revert S K. generalize (grow (op_shape w nm) shs ops) (grow (op_limbs Mm) As ops). clear.
  intros shs As S K. revert shs S. induction K as [|z A zs As (I1 & _ & _ & I4 & _) _ IH]; intros shs S; inversion S as [|p ? shs' ? SP S']; subst; [reflexivity|]. destruct SP as (S1 & _).
  cbn [map]. rewrite (IH _ S'). f_equal. unfold int_of. now rewrite S1, (ev_canon _ _ _ I1 I4).
Qed.
End Top.
End Modular.

(** ** Powers *)
Lemma grow_app {A} (f : list A -> op -> A) a : forall l b, grow f l (a ++ b) = grow f (grow f l a) b.
Proof. induction a; intros l b; cbn [app grow]; auto. Qed.
Lemma grow_length {A} (f : list A -> op -> A) ops : forall l, length (grow f l ops) = (length l + length ops)%nat.
Proof. induction ops; intros l; cbn [grow length]; [lia|]. rewrite IHops, app_length. cbn [length]. lia. Qed.
Lemma grow_nth {A} (f : list A -> op -> A) ops d : forall l i, (i < length l)%nat -> nth i (grow f l ops) d = nth i l d.
Proof.
  induction ops as [|o ops IH]; intros l i Hi; cbn [grow]; auto. rewrite IH by (rewrite app_length; cbn; lia). now apply app_nth1.
Qed.
Lemma grow_last {A} (f : list A -> op -> A) o d l : nth (length l) (grow f l [o]) d = f l o.
Proof. cbn [grow]. rewrite app_nth2, Nat.sub_diag by lia. reflexivity. Qed.
Lemma last_nth {A} (l : list A) d : last l d = nth (length l - 1) l d.
Proof. induction l as [|a [|b l] IH]; auto. change (last (a :: b :: l) d) with (last (b :: l) d). rewrite IH. cbn [length]. rewrite !Nat.sub_succ, !Nat.sub_0_r. reflexivity. Qed.

(** A function that multiplies the entries, up to [norm], computes powers. *)
Section Power.
Context (f : list Z -> op -> Z) (norm : Z -> Z).
Context (Hf : forall vs i j, f vs (OMul i j) = norm (nth i vs 0 * nth j vs 0)).
Lemma power_entries v p : (forall a b, norm (norm (v ^ a) * norm (v ^ b)) = norm (v ^ a * v ^ b)) -> norm v = v ->
  let vs := grow f [v] (power_ops p) in nth 0 vs 0 = v /\ nth (length (power_ops p)) vs 0 = norm (v ^ Zpos p).
Proof.
  intros HN H1 vs. split; [apply grow_nth; cbn; lia|]. subst vs. induction p as [p IH|p IH|]; cbn [power_ops].
  - set (l := power_ops p) in *. set (vs := grow f [v] l) in *.
    assert (L : length vs = S (length l)) by (unfold vs; rewrite grow_length; reflexivity).
    rewrite app_length. cbn [length]. change [OMul (length l) (length l); OMul (S (length l)) 0] with ([OMul (length l) (length l)] ++ [OMul (S (length l)) 0]).
    rewrite !grow_app. fold vs. set (us := grow f vs [OMul (length l) (length l)]).
    assert (L' : length us = S (S (length l))) by (unfold us; rewrite grow_length, L; cbn; lia).
    replace (length l + 2)%nat with (length us) by lia. rewrite grow_last, Hf.
    assert (U : nth (S (length l)) us 0 = norm (v ^ (2 * Zpos p))).
    { unfold us. rewrite <- L, grow_last, Hf, IH, HN. f_equal. rewrite <- Z.pow_add_r by lia. f_equal. lia. }
    assert (U0 : nth 0 us 0 = norm (v ^ 1)).
    { unfold us. rewrite grow_nth by lia. unfold vs. rewrite grow_nth by (cbn; lia). rewrite Z.pow_1_r, H1. reflexivity. }
    rewrite U, U0, HN. f_equal. rewrite <- Z.pow_add_r by lia. f_equal; lia.
  - set (l := power_ops p) in *. set (vs := grow f [v] l) in *.
    assert (L : length vs = S (length l)) by (unfold vs; rewrite grow_length; reflexivity).
    rewrite app_length, grow_app. cbn [length]. fold vs. replace (length l + 1)%nat with (length vs) by lia.
    rewrite grow_last, Hf, IH, HN. f_equal. rewrite <- Z.pow_add_r by lia. f_equal. lia.
  - cbn [grow nth length]. rewrite Z.pow_1_r, H1. reflexivity.
Qed.
Lemma power_last v p : (forall a b, norm (norm (v ^ a) * norm (v ^ b)) = norm (v ^ a * v ^ b)) -> norm v = v ->
  last (grow f [v] (power_ops p)) 0 = norm (v ^ Zpos p).
Proof.
  intros HN H1. rewrite last_nth, grow_length. cbn [length]. replace (1 + length (power_ops p) - 1)%nat with (length (power_ops p)) by lia.
  now apply power_entries.
Qed.
End Power.
Lemma power_value v p : last (grow op_value [v] (power_ops p)) 0 = v ^ Zpos p.
Proof. exact (power_last op_value (fun z => z) ltac:(reflexivity) v p ltac:(reflexivity) eq_refl). Qed.
Lemma power_reduced m v p : 0 <= v < m -> last (grow (op_reduced m) [v] (power_ops p)) 0 = v ^ Zpos p mod m.
Proof.
  intros Hv. apply (power_last (op_reduced m) (fun z => z mod m)); [reflexivity| |now apply Z.mod_small].
  intros a b. rewrite <- Zmult_mod. reflexivity.
Qed.

(** Multiplications of earlier entries only. *)
Fixpoint mul_only (k : nat) (ops : list op) : Prop :=
  match ops with
  | [] => True
  | OMul i j :: ops => (i < k)%nat /\ (j < k)%nat /\ mul_only (S k) ops
  | _ => False
  end.
Lemma mul_only_app a : forall k b, mul_only k a -> mul_only (k + length a) b -> mul_only k (a ++ b).
Proof.
  induction a as [|o a IH]; intros k b; cbn [app length mul_only].
  - rewrite Nat.add_0_r. auto.
  - destruct o; try tauto. intros (H1 & H2 & H3) Hb. repeat split; auto. apply IH; auto. now replace (S k + length a)%nat with (k + S (length a))%nat by lia.
Qed.
Lemma power_mul_only p : mul_only 1 (power_ops p).
Proof.
  induction p; cbn [power_ops]; [| |exact I].
  - apply mul_only_app; auto. cbn [mul_only]. lia.
  - apply mul_only_app; auto. cbn [mul_only]. lia.
Qed.

Section PowerTop.
Context {E : Env} {W : Wf E}.
Context (w n mb : nat) (mw : Z) (Hw : (1 <= w)%nat) (Hn : (1 <= n)%nat) (Hmw : 0 <= mw).
Notation X := (2 ^ Z.of_nat w).
Notation sh := (n, X - 1).

Lemma all_nth shs i : Forall (eq sh) shs -> (i < length shs)%nat -> nth i shs (0%nat, 0%Z) = sh.
Proof. intros H Hi. rewrite Forall_forall in H. symmetry. apply H. now apply nth_In. Qed.
Lemma mul_room ops : op_room w n mb mw [sh] (OMul 0 0) -> forall shs, Forall (eq sh) shs -> mul_only (length shs) ops -> program_room w n mb mw shs ops.
Proof.
  intros HR. induction ops as [|o ops IH]; intros shs HS HO; cbn [program_room]; auto. destruct o as [i j| |]; cbn [mul_only] in HO; try tauto.
  destruct HO as (H1 & H2 & H3). split.
  - cbn [op_room] in *. unfold op_word, quot_limbs in *. rewrite (all_nth shs i), (all_nth shs j) by auto. cbn [nth] in HR. tauto.
  - apply IH; [apply Forall_snoc; auto|]. rewrite app_length, Nat.add_1_r. exact H3.
Qed.

Lemma top_power_value wit m x p s zs s' rho :
  run wit (program m [x] (power_ops p)) s = (Ok zs, s') -> sat rho s' ->
  of_shape w (n, mw) m -> bounded rho m -> min_bits (bparams m) = mb -> of_shape w sh x -> bounded rho x ->
  op_room w n mb mw [sh] (OMul 0 0) ->
  (int_of rho m | int_of rho x ^ Zpos p - int_of rho (last zs x)) /\ of_shape w sh (last zs x) /\ bounded rho (last zs x).
Proof.
  intros Hr Hs Sm Bm Hmb Sx Bx HR. pose proof (pow2_pos w) as HX.
  assert (HI : ins_ok [sh]) by (constructor; [|constructor]; cbn [fst snd]; lia).
  destruct (top_program_value w n mb mw Hw Hn wit m [sh] [x] (power_ops p) s zs s' rho Hr Hs Sm Bm Hmb HI) as (H1 & H2 & H3).
  { constructor; auto. } { constructor; auto. }
  { apply mul_room; auto. apply power_mul_only. }
  assert (LZ : length zs = S (length (power_ops p))).
  { rewrite <- (Forall2_length _ _ _ H1), grow_length. reflexivity. }
  assert (HZ : nth_error zs (length zs - 1) = Some (last zs x)).
  { rewrite last_nth. apply nth_error_nth'. lia. }
  split; [|split].
  - cbn [map] in H3. pose proof (Forall2_nth_error _ _ _ (Forall2_turn _ _ _ H3) _ _ 0 HZ) as K. cbv beta in K.
    rewrite <- (power_value (int_of rho x) p), last_nth, <- (Forall2_length _ _ _ H3). exact K.
  - pose proof (Forall2_nth_error _ _ _ H1 _ _ (0%nat, 0%Z) HZ) as K.
    assert (HA : forall ops shs, Forall (eq sh) shs -> mul_only (length shs) ops -> Forall (eq sh) (grow (op_shape w n) shs ops)).
    { clear -HX. induction ops as [|o ops IH]; intros shs HS HO; cbn [grow]; auto. destruct o; cbn [mul_only] in HO; try tauto.
      apply IH; [apply Forall_snoc; auto|]. rewrite app_length, Nat.add_1_r. tauto. }
    rewrite (all_nth _ _ (HA (power_ops p) [sh] ltac:(auto) (power_mul_only p))) in K; [exact K|].
    rewrite grow_length, LZ. cbn [length]. lia.
  - rewrite Forall_forall in H2. apply H2. eapply nth_error_In; eauto.
Qed.

Lemma mul_fits mz ops : 0 < mz -> op_fits w n mb mw mz [sh] [mz - 1] (OMul 0 0) ->
  forall shs vs, Forall (eq sh) shs -> Forall (fun v => 0 <= v < mz) vs -> length vs = length shs -> mul_only (length shs) ops ->
  program_fits w n mb mw mz shs vs ops.
Proof.
  intros Hm HF. induction ops as [|o ops IH]; intros shs vs HS HV HL HO; cbn [program_fits]; auto. destruct o as [i j| |]; cbn [mul_only] in HO; try tauto.
  destruct HO as (H1 & H2 & H3). split.
  - rewrite Forall_forall in HV. assert (Vi : 0 <= nth i vs 0 < mz) by (apply HV, nth_In; lia). assert (Vj : 0 <= nth j vs 0 < mz) by (apply HV, nth_In; lia).
    assert (HP : nth i vs 0 * nth j vs 0 <= (mz - 1) * (mz - 1)) by (apply Z.mul_le_mono_nonneg; lia).
    unfold op_fits, op_word, quot_limbs, op_value in *. rewrite (all_nth shs i), (all_nth shs j) by auto. cbn [nth] in HF. destruct HF as [F1 F2].
    split; [pose proof (Z.div_le_mono _ _ mz Hm HP); lia|]. destruct F2 as [F2|F2]; [now left|right]. lia.
  - apply IH; [apply Forall_snoc; auto|apply Forall_snoc; auto| |]; cbn [op_reduced].
    + apply Z.mod_pos_bound, Hm.
    + rewrite !app_length, HL. reflexivity.
    + rewrite app_length, Nat.add_1_r. exact H3.
Qed.
Context (HwN : (w < NUM_BITS)%nat).

Lemma sh_ok : ins_ok [sh].
Proof. pose proof (pow2_pos w). constructor; [|constructor]; cbn [fst snd]; lia. Qed.

Lemma top_power_complete m x Mm A p s :
  let mz := value_of X Mm in
  good s -> of_shape w (n, mw) m -> bignat_at s m Mm -> min_bits (bparams m) = mb -> 0 < mz <= 2 ^ Z.of_nat (w * n) ->
  of_shape w sh x -> bignat_at s x A -> 0 <= value_of X A < mz ->
  op_room w n mb mw [sh] (OMul 0 0) -> op_fits w n mb mw mz [sh] [mz - 1] (OMul 0 0) ->
  exists zs s' R, run true (program m [x] (power_ops p)) s = (Ok zs, s') /\ good s' /\
    bignat_at s' (last zs x) R /\ value_of X R = value_of X A ^ Zpos p mod mz.
Proof.
  intros mz G Sm Hm Hmb HM Sx Hx Hv HR HF.
  destruct (top_program_complete w n mb mw Hw Hn Hmw HwN m [sh] [x] Mm [A] (power_ops p) s G Sm Hm Hmb HM sh_ok) as (zs & s' & Zs & H1 & H2 & H3 & H4 & H5).
  { constructor; auto. } { constructor; auto. }
  { apply mul_room; auto. apply power_mul_only. }
  { apply mul_fits; auto; [lia|constructor; auto|apply power_mul_only]. }
  exists zs, s', (last Zs []). split; auto. split; auto. cbn [map] in H5. fold mz in H5.
  assert (LZ : length zs = S (length (power_ops p))) by (rewrite <- (Forall2_length _ _ _ H3), grow_length; reflexivity).
  pose proof (Forall2_length _ _ _ H4) as LZ'. split.
  - rewrite !last_nth, <- LZ'. assert (HZ : nth_error Zs (length zs - 1) = Some (nth (length zs - 1) Zs [])) by (apply nth_error_nth'; lia).
    exact (Forall2_nth_error _ _ _ H4 _ _ x HZ).
  - rewrite <- (power_reduced mz (value_of X A) p Hv), <- H5, !last_nth, map_length.
    rewrite (nth_indep _ 0 (value_of X [])) by (rewrite map_length; lia). now rewrite map_nth.
Qed.

Lemma top_power_any wit m x Mm A p s rho0 zs s' :
  let mz := value_of X Mm in
  good_for rho0 s -> of_shape w (n, mw) m -> bignat_for rho0 s m Mm -> min_bits (bparams m) = mb -> 0 < mz <= 2 ^ Z.of_nat (w * n) ->
  of_shape w sh x -> bignat_for rho0 s x A -> 0 <= value_of X A < mz ->
  run wit (program m [x] (power_ops p)) s = (Ok zs, s') ->
  op_room w n mb mw [sh] (OMul 0 0) -> op_fits w n mb mw mz [sh] [mz - 1] (OMul 0 0) ->
  exists rho, same_on s rho rho0 /\ sat rho s' /\ int_of rho (last zs x) = value_of X A ^ Zpos p mod mz.
Proof.
  intros mz G Sm Hm Hmb HM Sx Hx Hv Hr HR HF.
  destruct (top_program_any w n mb mw Hw Hn Hmw HwN wit m [sh] [x] Mm [A] (power_ops p) s rho0 zs s' G Sm Hm Hmb HM sh_ok) as (rho & H1 & H2 & H3); auto.
  { apply mul_room; auto. apply power_mul_only. }
  { apply mul_fits; auto; [lia|constructor; auto|apply power_mul_only]. }
  exists rho. split; auto. split; auto. cbn [map] in H3.
  rewrite <- (power_reduced mz (value_of X A) p Hv). fold mz in H3. rewrite <- H3, !last_nth, map_length.
  assert (LZ : length zs = S (length (power_ops p))) by (rewrite <- (map_length (int_of rho)), H3, grow_length; reflexivity).
  rewrite (nth_indep _ 0 (int_of rho x)) by (rewrite map_length; lia). now rewrite map_nth.
Qed.
End PowerTop.

(** A modulus recorded with all its bits leaves the quotient of two reduced numbers as many limbs as it needs. *)
Lemma top_full_fits {E : Env} {W : Wf E} w n mw mz : (1 <= w)%nat -> (1 <= n)%nat -> 0 < mz <= 2 ^ Z.of_nat (w * n) ->
  op_fits w n (w * n) mw mz [(n, 2 ^ Z.of_nat w - 1)] [mz - 1] (OMul 0 0).
Proof.
  intros Hw Hn HM. unfold op_fits. set (M := op_word _ _ _ _ _ _). set (g := group_size _ _). cbn [quot_limbs nth fst]. unfold q_limbs, number_bits. cbn [fst snd].
  rewrite bigint_bits_ones by auto.
  assert (Q : ((w * (n - 1) + w + (w * (n - 1) + w) - w * n - 1) / w + 1 = n)%nat).
  { destruct n as [|k]; [lia|]. rewrite Nat.sub_succ, Nat.sub_0_r.
    replace (w * k + w + (w * k + w) - w * S k - 1)%nat with (k * w + (w - 1))%nat by nia.
    rewrite Nat.div_add_l, Nat.div_small by lia. lia. }
  rewrite Q. cbn [op_value nth]. split.
  - apply Z.div_lt_upper_bound; [lia|]. nia.
  - left. f_equal. lia.
Qed.
