(** Circuits for arithmetic expressions compute the integer denoted (C99): induction over the expression. *)
From Coq Require Import String ZArith Znumtheory Bool List Lia Setoid Morphisms ZifyBool ZifyNat.
From Verif.Model Require Import Base CS Bellpepper Util Poly Bignat Gadget.
From Verif.Spec Require Import Spec SpecExpr.
From Verif.Proofs Require Import Field Arith Convert Limbs Wp Lc BitNum PolyP BoolP BignatEq BignatAlloc Group Carry Regroup Mult MultC TopBits TopPoly TopBignat1 PureOps TopPure Owp Pwp
  TopBignat2 MuxP MedianP MinBits SubP Ewp Relation.
Import ListNotations.
Local Open Scope Z_scope.

Section Expr.
Context {E : Env} {W : Wf E}.

Section Static.
Context (w : nat) (ins : list (nat * Z)) (nc : nat) (HI : ins_ok ins).

Lemma ones_nonneg : 0 <= 2 ^ Z.of_nat w - 1.
Proof. pose proof (pow2_pos w). lia. Qed.
Lemma in_nth i : (i < length ins)%nat -> (1 <= fst (nth i ins (0%nat, 0%Z)))%nat /\ 0 <= snd (nth i ins (0%nat, 0%Z)).
Proof. intros H. pose proof HI as K. unfold ins_ok in K. rewrite Forall_forall in K. apply K, nth_In, H. Qed.
Lemma size_pos e : in_room w ins nc e -> (1 <= size ins e)%nat.
Proof.
  induction e; cbn [in_room size]; intros H.
  - now apply in_nth.
  - destruct H as (H1 & H2 & _). specialize (IHe1 H1). lia.
  - destruct H as (H1 & H2 & _). specialize (IHe1 H1). lia.
  - apply IHe1, H.
  - apply IHe, H.
  - apply IHe, H.
  - destruct H as (H1 & H2). specialize (IHe1 H1). lia.
  - destruct H as (H1 & H2 & _). specialize (IHe1 H1). lia.
Qed.
Lemma word_pos e : in_room w ins nc e -> 0 <= word w ins e.
Proof.
  induction e; cbn [in_room word]; intros H; try apply ones_nonneg.
  - now apply in_nth.
  - destruct H as (H1 & H2 & _). specialize (IHe1 H1). specialize (IHe2 H2). lia.
  - destruct H as (H1 & H2 & _). specialize (IHe H1). destruct H2. lia.
  - destruct H as (H1 & H2 & _). specialize (IHe H1). destruct H2. nia.
  - destruct H as (H1 & H2). specialize (IHe1 H1). lia.
Qed.
End Static.

(** ** The operations that only build linear combinations, seen from the wires *)
Lemma shift_inv b k c : shift b k = Ok c -> canon k ->
  exists l0 ls, limbs b = l0 :: ls /\ limbs c = lc_add l0 (lc_const k) :: ls /\
  bparams c = mkParams (min_bits (bparams b)) (max_word (bparams b) + k) (limb_width (bparams b)) (n_limbs (bparams b)).
Proof.
  intros H HK. unfold shift in H. destruct (limbs b) as [|l0 ls]; [discriminate|]. apply rbind_ok in H. destruct H as (v & _ & H).
  destruct (_ <=? _); [|discriminate]. injection H as <-. exists l0, ls. split; auto. split; auto. cbn [bparams].
  now rewrite f_to_nat_canon.
Qed.
Lemma scale_inv b k c : scale b k = Ok c -> canon k ->
  limbs c = map (lc_scale k) (limbs b) /\
  bparams c = mkParams (min_bits (bparams b)) (max_word (bparams b) * k) (limb_width (bparams b)) (n_limbs (bparams b)).
Proof.
  intros H HK. unfold scale in H. destruct (_ <=? _); [|discriminate]. injection H as <-. split; auto. cbn [bparams].
  now rewrite f_to_nat_canon.
Qed.
Lemma concat_inv a b c : concat a b = Ok c ->
  limb_width (bparams a) = limb_width (bparams b) /\ limbs c = limbs b ++ limbs a /\
  limb_width (bparams c) = limb_width (bparams a) /\ n_limbs (bparams c) = (n_limbs (bparams a) + n_limbs (bparams b))%nat /\
  max_word (bparams c) = Z.max (max_word (bparams a)) (max_word (bparams b)).
Proof.
  intros H. unfold concat, width_agreement in H.
  destruct (Nat.eqb_spec (limb_width (bparams a)) (limb_width (bparams b))) as [HW|]; [|discriminate]. cbn [rbind] in H.
  injection H as <-. auto.
Qed.
Lemma value_scale B xs k : value_of B (map (fun x => x * k) xs) = value_of B xs * k.
Proof. induction xs as [|x xs IH]; [reflexivity|]. cbn [map value_of]. rewrite IH. ring. Qed.
Lemma scale_bound M xs k : 0 <= k -> Forall (fun v => 0 <= v <= M) xs -> Forall (fun v => 0 <= v <= M * k) (map (fun x => x * k) xs).
Proof. intros HK H. apply Forall_map. eapply Forall_impl; [|exact H]. cbv beta. intros a Ha. nia. Qed.
Lemma shift_bound M x xs k : 0 <= k -> Forall (fun v => 0 <= v <= M) (x :: xs) -> Forall (fun v => 0 <= v <= M + k) (x + k :: xs).
Proof. intros HK H. inversion H as [|? ? B1 B2]; subst. constructor; [lia|]. eapply Forall_impl; [|exact B2]. cbv beta; lia. Qed.
Lemma scale_ev rho k ls xs : ev rho ls xs -> ev rho (map (lc_scale k) ls) (map (fun x => x * k) xs).
Proof.
  intros H. induction H as [|l v ls vs Hlv _ IH]; cbn [map]; [constructor|]. constructor; [|exact IH].
  lcs. rewrite Hlv. apply eqp_ring. ring.
Qed.
Lemma max_bound M1 M2 M A : Forall (fun v => 0 <= v <= M1) A -> M = Z.max M1 M2 \/ M = Z.max M2 M1 -> Forall (fun v => 0 <= v <= M) A.
Proof. intros H HM. eapply Forall_impl; [|exact H]. cbv beta. lia. Qed.

Lemma mult_params a b : rwp (mult a b) (fun p => max_word (bparams p) = 2 ^ Z.of_nat (limb_width (bparams b)) - 1 /\
  n_limbs (bparams p) = (n_limbs (bparams a) + n_limbs (bparams b))%nat).
Proof.
  unfold mult. apply rwp_skip. intros _. apply rwp_bind, rwp_ns.
  assert (K : forall f w n, rwp (alloc_from_nat f w n) (fun p => bparams p = params_new w n)).
  { intros f w n. unfold alloc_from_nat. apply rwp_skip. intros vs. destruct (match _ with [] => _ | _ => _ end) as [v l]. simpl. reflexivity. }
  eapply rwp_mono; [apply K|]. cbv beta. intros p0 Hp.
  set (p := if _ : bool then _ else _).
  assert (P : max_word (bparams p) = 2 ^ Z.of_nat (limb_width (bparams b)) - 1 /\
     n_limbs (bparams p) = (n_limbs (bparams a) + n_limbs (bparams b))%nat).
  { unfold p, set_min_bits, with_params. rewrite <- (params_word (limb_width (bparams b)) (n_limbs (bparams b) + n_limbs (bparams a))).
    destruct (_ && _); cbn [bparams]; rewrite Hp; cbn [max_word n_limbs params_new]; split; auto; lia. }
  clearbody p. apply rwp_skip. intros _. apply rwp_skip. intros _. exact P.
Qed.

(** ** Soundness *)
Section Sound.
Context (rho : assignment) (one : rho ONE = 1).
Context (w : nat) (ins : list (nat * Z)) (HI : ins_ok ins) (Hw : (1 <= w)%nat).
Context (xs : list bignat) (bs : list bit) (vs : list Z) (cs : list bool).
Context (HX : forall i b, nth_error xs i = Some b -> of_shape w (nth i ins (0%nat, 0%Z)) b /\ bounded rho b /\ int_of rho b = nth i vs 0).
Context (HB : forall i c, nth_error bs i = Some c -> wire_bit rho (b_lc c) (nth i cs false)).

Definition computes (e : expr) (b : bignat) : Prop :=
  of_shape w (size ins e, word w ins e) b /\ bounded rho b /\ int_of rho b = denote w ins vs cs e.

Lemma swp_rwp {A} md (m : prog A) : forall (P : A -> Prop), rwp m P -> swp md rho m P.
Proof. induction m; simpl; eauto. Qed.

Lemma circuit_swp md e : in_room w ins (length bs) e ->
  swp md rho (circuit xs bs e) (fun b => computes e b /\ fits w ins vs cs e).
Proof.
  induction e as [i|e1 IH1 e2 IH2|e1 IH1 e2 IH2|e1 IH1 e2 IH2|e1 IH1 k|e1 IH1 k|e1 IH1 e2 IH2|i e1 IH1 e2 IH2];
    cbn [in_room circuit]; intros HR.
  - destruct (nth_error xs i) as [b|] eqn:Eb; [|exact I]. simpl. split; [|exact I]. destruct (HX i b Eb) as (H1 & H2 & H3).
    split; [|split; [exact H2|exact H3]]. exact H1.
  - destruct HR as (R1 & R2 & R3). apply swp_bind, swp_ns. eapply swp_mono; [apply IH1, R1|]. cbv beta. intros x [[(X1 & X2 & X3 & X4) [XB XV]] XF].
    apply swp_bind, swp_ns. eapply swp_mono; [apply IH2, R2|]. cbv beta. intros y [[(Y1 & Y2 & Y3 & Y4) [YB YV]] YF]. cbn [fst snd] in *.
    apply swp_lift. intros c Hc. destruct (add_inv _ _ _ Hc) as (C1 & C2 & C3); [congruence|congruence|].
    apply bounded_in_word in XB, YB. pose proof (word_pos w ins _ HI _ R1) as P1. pose proof (word_pos w ins _ HI _ R2) as P2.
    rewrite <- X4 in P1, R3. rewrite <- Y4 in P2, R3.
    pose proof (rsum_word _ _ _ _ XB YB P1 P2) as HS.
    assert (HC : wires rho (limbs c) = rsum (wires rho (limbs x)) (wires rho (limbs y))).
    { apply ev_canon; [apply C3; apply ev_wires|]. eapply bounded_canon; eauto. }
    split; [|cbn [fits]; auto]. split; [|split].
    + split; [rewrite C2; exact X1|]. split; [rewrite C2; cbn [add_params n_limbs fst size]; congruence|].
      split; [|rewrite C2; cbn [add_params max_word snd word]; congruence].
      rewrite <- (wires_length rho), HC, rsum_length, !wires_length. cbn [fst size]. congruence.
    + apply bounded_in_word. unfold in_word. rewrite HC, C2. exact HS.
    + cbn [denote]. rewrite <- XV, <- YV. unfold int_of. rewrite HC, rsum_value, C2. cbn [add_params limb_width]. now rewrite C1.
  - destruct HR as (R1 & R2 & R3 & R4 & R5). apply swp_bind, swp_ns. eapply swp_mono; [apply IH1, R1|]. cbv beta. intros x [[(X1 & X2 & X3 & X4) [XB XV]] XF].
    apply swp_bind, swp_ns. eapply swp_mono; [apply IH2, R2|]. cbv beta. intros y [[(Y1 & Y2 & Y3 & Y4) [YB YV]] YF]. cbn [fst snd] in *.
    apply bounded_in_word in XB, YB. apply swp_ns.
    assert (NX : length (wires rho (limbs x)) = size ins e1) by (rewrite wires_length; exact X3).
    assert (NY : length (wires rho (limbs y)) = size ins e2) by (rewrite wires_length; exact Y3).
    assert (HM : Z.max (mult_word x y) (2 ^ Z.of_nat w - 1) = mul_word w ins e1 e2).
    { unfold mult_word, mul_word. rewrite X2, X4, Y2, Y4. reflexivity. }
    pose proof (mult_swp rho one md x y _ _ (ev_wires rho (limbs x)) (ev_wires rho (limbs y)) XB YB) as K. cbv zeta in K.
    rewrite NX, NY, X1, HM, X2, Y2 in K. pose proof (size_pos w ins _ HI _ R1) as S1.
    assert (HN : Z.of_nat (size ins e1 + size ins e2 - 1) < modulus) by lia. specialize (K eq_refl eq_refl HN R4).
    eapply swp_mono; [exact (swp_both _ _ _ _ _ (swp_rwp md _ _ (mult_params x y)) K)|].
    cbv beta. intros p ((M1 & M2) & K1 & K2 & K3 & K4 & K5 & K6).
    assert (VP : int_of rho p = denote w ins vs cs (EMul e1 e2)).
    { cbn [denote]. rewrite <- K5, <- XV, <- YV. unfold int_of. rewrite X1, Y1. reflexivity. }
    split; [split; [|split; [|exact VP]]|].
    + split; auto. cbn [fst snd size word]. rewrite M1, M2, K1, X2, Y2, K3. auto.
    + apply bounded_in_word. unfold in_word. rewrite M1, K1. eapply Forall_impl; [|exact K4]. cbv beta. lia.
    + pose proof (range_value _ _ K4) as HV. rewrite wires_length, K3 in HV.
      assert (HV' : int_of rho p < 2 ^ Z.of_nat (w * (size ins e1 + size ins e2))) by (unfold int_of; rewrite K2; apply HV).
      cbn [fits]. rewrite <- VP. auto.
  - destruct HR as (R1 & R2 & R3 & R4 & R5). apply swp_bind, swp_ns. eapply swp_mono; [apply IH1, R1|]. cbv beta. intros x [[(X1 & X2 & X3 & X4) [XB XV]] XF].
    apply swp_bind, swp_ns. eapply swp_mono; [apply IH2, R2|]. cbv beta. intros y [[(Y1 & Y2 & Y3 & Y4) [YB YV]] YF]. cbn [fst snd] in *.
    apply bounded_in_word in XB, YB.
    assert (NX : length (wires rho (limbs x)) = size ins e1) by (rewrite wires_length; exact X3).
    assert (NY : length (wires rho (limbs y)) = size ins e2) by (rewrite wires_length; exact Y3).
    assert (HM : sub_word x y = dif_word w ins e1 e2).
    { unfold sub_word, dif_word. rewrite X1, X4, Y4. reflexivity. }
    pose proof (sub_swp rho one md x y _ _ (ev_wires rho (limbs x)) (ev_wires rho (limbs y)) XB YB) as K. cbv zeta in K.
    rewrite NX, NY, X1, HM, X2, Y2, Y4 in K. specialize (K eq_refl eq_refl (word_pos w ins _ HI _ R2) R4).
    apply swp_bind, swp_ns. eapply swp_mono; [exact K|]. cbv beta. intros d (K1 & K2 & K3 & K4).
    assert (Wd : limb_width (bparams d) = w) by (rewrite K2; reflexivity).
    apply swp_bind, swp_ns. apply wf_range; auto. rewrite Wd, width1_pos by auto. intros HRg. cbn [swp].
    specialize (K4 HRg).
    assert (VD : int_of rho d = denote w ins vs cs (ESub e1 e2)).
    { cbn [denote]. rewrite <- XV, <- YV. unfold int_of in *. rewrite X1, Y1. lia. }
    split; [split; [|split; [|exact VD]]|].
    + split; auto. cbn [fst snd size word]. rewrite K2, params_word. auto.
    + apply bounded_in_word. eapply range_in_word; [exact K2|exact HRg].
    + pose proof (range_value _ _ HRg) as HV. rewrite wires_length, K3 in HV.
      assert (HV' : 0 <= int_of rho d < 2 ^ Z.of_nat (w * size ins e1)) by (unfold int_of; rewrite Wd; apply HV).
      cbn [fits]. rewrite <- VD. auto.
  - destruct HR as (R1 & R2 & R3). apply swp_bind, swp_ns. eapply swp_mono; [apply IH1, R1|]. cbv beta. intros x [[(X1 & X2 & X3 & X4) [XB XV]] XF].
    cbn [fst snd] in *. apply swp_lift. intros c Hc. destruct (shift_inv _ _ _ Hc R2) as (l0 & ls & L1 & L2 & L3).
    apply bounded_in_word in XB. unfold in_word in XB. rewrite L1 in XB. cbn [wires map] in XB.
    pose proof (shift_bound _ _ _ k (proj1 R2) XB) as HS. pose proof CAPACITY_lt as HP.
    assert (HC : wires rho (limbs c) = feval rho l0 + k :: map (feval rho) ls).
    { apply ev_canon; [|eapply bounded_canon; [|exact HS]; lia]. rewrite L2. pose proof (ev_wires rho (l0 :: ls)) as He.
      cbn [wires map] in He. inversion He; subst. constructor; auto. lcs. rewrite lc_eval_const by auto. now rewrite H2. }
    split; [|exact XF]. split; [|split].
    + split; [rewrite L3; exact X1|]. split; [rewrite L3; exact X2|]. split; [|rewrite L3; cbn [max_word snd word]; congruence].
      rewrite L2. cbn [fst size]. rewrite <- X3, L1. reflexivity.
    + apply bounded_in_word. unfold in_word. rewrite HC, L3. exact HS.
    + cbn [denote]. rewrite <- XV. unfold int_of. rewrite HC, L3, L1. cbn [limb_width wires map value_of]. ring.
  - destruct HR as (R1 & R2 & R3). apply swp_bind, swp_ns. eapply swp_mono; [apply IH1, R1|]. cbv beta. intros x [[(X1 & X2 & X3 & X4) [XB XV]] XF].
    cbn [fst snd] in *. apply swp_lift. intros c Hc. destruct (scale_inv _ _ _ Hc R2) as (L1 & L2).
    apply bounded_in_word in XB. pose proof (scale_bound _ _ k (proj1 R2) XB) as HS. pose proof CAPACITY_lt as HP.
    assert (HC : wires rho (limbs c) = map (fun v => v * k) (wires rho (limbs x))).
    { apply ev_canon; [rewrite L1; apply scale_ev, ev_wires|]. eapply bounded_canon; [|exact HS]. lia. }
    split; [|exact XF]. split; [|split].
    + split; [rewrite L2; exact X1|]. split; [rewrite L2; exact X2|]. split; [|rewrite L2; cbn [max_word snd word]; congruence].
      rewrite L1, map_length. exact X3.
    + apply bounded_in_word. unfold in_word. rewrite HC, L2. exact HS.
    + cbn [denote]. rewrite <- XV. unfold int_of. rewrite HC, L2, value_scale. reflexivity.
  - destruct HR as (R1 & R2). apply swp_bind, swp_ns. eapply swp_mono; [apply IH1, R1|]. cbv beta. intros x [[(X1 & X2 & X3 & X4) [XB XV]] XF].
    apply swp_bind, swp_ns. eapply swp_mono; [apply IH2, R2|]. cbv beta. intros y [[(Y1 & Y2 & Y3 & Y4) [YB YV]] YF]. cbn [fst snd] in *.
    apply swp_lift. intros c Hc. destruct (concat_inv _ _ _ Hc) as (C1 & C2 & C3 & C4 & C5).
    assert (HC : wires rho (limbs c) = wires rho (limbs y) ++ wires rho (limbs x)) by (rewrite C2; apply map_app).
    split; [|split; auto]. split; [|split].
    + split; [congruence|]. cbn [fst snd size word]. rewrite C4, C5, C2, app_length. repeat split; try congruence. lia.
    + unfold bounded in *. rewrite HC, Forall_app, C5.
      split; [eapply Forall_impl; [|exact YB]|eapply Forall_impl; [|exact XB]]; cbv beta; lia.
    + cbn [denote]. rewrite <- XV, <- YV. unfold int_of. rewrite HC, C3, value_of_app, wires_length, Y3, X1, Y1, pow2_mul. ring.
  - destruct HR as (R1 & R2 & R3 & R4 & R5). apply swp_bind, swp_ns. eapply swp_mono; [apply IH1, R1|]. cbv beta. intros x [[(X1 & X2 & X3 & X4) [XB XV]] XF].
    apply swp_bind, swp_ns. eapply swp_mono; [apply IH2, R2|]. cbv beta. intros y [[(Y1 & Y2 & Y3 & Y4) [YB YV]] YF]. cbn [fst snd] in *.
    destruct (nth_error bs i) as [c|] eqn:Ec; [|exact I]. apply swp_ns.
    eapply swp_mono; [apply (mux_swp rho md c (nth i cs false) x y); [exact (HB i c Ec)|congruence|congruence]|].
    cbv beta zeta. intros o (K1 & K2 & K3 & K4). rewrite X1, X3, Y3 in K2. rewrite X3, Y3 in K3, K4.
    split; [|split; auto]. split; [|split].
    + split; [rewrite K2; reflexivity|]. cbn [fst snd size word]. rewrite K2, params_word. auto.
    + apply bounded_in_word. unfold in_word. rewrite K4, K2, params_word. apply padded_Forall; [pose proof (pow2_pos w); lia|].
      apply bounded_in_word in XB, YB. unfold in_word in XB, YB. rewrite X4 in XB. rewrite Y4 in YB.
      destruct (nth i cs false); cbn [wsel]; (eapply Forall_impl; [|eassumption]); cbv beta; lia.
    + cbn [denote]. unfold int_of. rewrite K4, padded_value, K2. cbn [params_new limb_width].
      unfold int_of in XV, YV. rewrite X1 in XV. rewrite Y1 in YV. destruct (nth i cs false); cbn [wsel]; auto.
Qed.
End Sound.

(** ** Completeness: the limbs of the result and the values of the new wires, computed from the limbs of the inputs *)
Section Complete.
Context (w : nat) (ins : list (nat * Z)) (HI : ins_ok ins) (Hw : (1 <= w)%nat) (HwN : (w < NUM_BITS)%nat).
Context (As : list (list Z)) (cs : list bool).
Context (HA : forall i, (i < length ins)%nat -> length (nth i As []) = fst (nth i ins (0%nat, 0%Z)) /\
  Forall (fun v => 0 <= v <= snd (nth i ins (0%nat, 0%Z))) (nth i As []) /\ Forall canon (nth i As [])).
Let X := 2 ^ Z.of_nat w.
Let vs := map (value_of X) As.
Let val e := denote w ins vs cs e.

Fixpoint limbs_of (e : expr) : list Z :=
  match e with
  | EIn i => nth i As []
  | EAdd a b => rsum (limbs_of a) (limbs_of b)
  | EMul a b => map (digit w (val (EMul a b))) (seq 0 (size ins a + size ins b))
  | ESub a b => map (digit w (val (ESub a b))) (seq 0 (size ins a))
  | EShift a k => match limbs_of a with [] => [] | x :: l => x + k :: l end
  | EScale a k => map (fun x => x * k) (limbs_of a)
  | EConcat a b => limbs_of b ++ limbs_of a
  | ECase i a b => padded (Nat.max (length (limbs_of a)) (length (limbs_of b))) (wsel (nth i cs false) (limbs_of a) (limbs_of b))
  end.
Fixpoint new_wires (e : expr) : list Z :=
  match e with
  | EIn _ => []
  | EAdd a b | EConcat a b => new_wires a ++ new_wires b ++ []
  | EMul a b => new_wires a ++ new_wires b ++ mult_aux w (mul_word w ins a b) (limbs_of a) (limbs_of b) (limbs_of (EMul a b))
  | ESub a b =>
      let D := limbs_of (ESub a b) in
      new_wires a ++ new_wires b ++ (D ++ regroup_aux (dif_word w ins a b) w (limbs_of a) (rsum (limbs_of b) D)) ++
      flat_map (fun y => fits_aux y w) D ++ []
  | EShift a _ | EScale a _ => new_wires a ++ []
  | ECase i a b => new_wires a ++ new_wires b ++ limbs_of (ECase i a b)
  end.

Lemma vs_nth i : nth i vs 0 = value_of X (nth i As []).
Proof. unfold vs. change 0 with (value_of X []) at 1. apply map_nth. Qed.

Lemma limbs_facts e nc : in_room w ins nc e -> fits w ins vs cs e ->
  length (limbs_of e) = size ins e /\ Forall (fun v => 0 <= v <= word w ins e) (limbs_of e) /\ Forall canon (limbs_of e) /\
  value_of X (limbs_of e) = val e.
Proof.
  assert (HwM : 2 ^ Z.of_nat w - 1 < modulus).
  { pose proof CAPACITY_lt as HC. assert (Hle : (w <= CAPACITY)%nat) by (unfold CAPACITY; lia). pose proof (pow2_le _ _ Hle). lia. }
  assert (HD : forall v n, Forall (fun x => 0 <= x <= 2 ^ Z.of_nat w - 1) (map (digit w v) (seq 0 n))).
  { intros v n. eapply Forall_impl; [|apply digits_range]. cbv beta. lia. }
  induction e as [i|e1 IH1 e2 IH2|e1 IH1 e2 IH2|e1 IH1 e2 IH2|e1 IH1 k|e1 IH1 k|e1 IH1 e2 IH2|i e1 IH1 e2 IH2];
    cbn [in_room fits]; intros HR HF; cbn [limbs_of size word].
  - destruct (HA i HR) as (H1 & H2 & H3). split; auto. split; auto. split; auto. unfold val. cbn [denote]. now rewrite vs_nth.
  - destruct HR as (R1 & R2 & R3), HF as (F1 & F2). destruct (IH1 R1 F1) as (L1 & B1 & C1 & V1). destruct (IH2 R2 F2) as (L2 & B2 & C2 & V2).
    assert (HB : Forall (fun v => 0 <= v <= word w ins e1 + word w ins e2) (rsum (limbs_of e1) (limbs_of e2))).
    { apply rsum_bound; auto; eapply word_pos; eauto. }
    split; [rewrite rsum_length; congruence|]. split; auto. split; [eapply bounded_canon; eauto|].
    rewrite rsum_value, V1, V2. reflexivity.
  - destruct HR as (R1 & R2 & R3), HF as (F1 & F2 & F3 & F4). destruct (IH1 R1 F1) as (L1 & B1 & C1 & V1). destruct (IH2 R2 F2) as (L2 & B2 & C2 & V2).
    split; [now rewrite map_length, seq_length|]. split; auto. split; [eapply bounded_canon; [|apply HD]; lia|].
    unfold X. rewrite digits_value. apply Z.mod_small. split; [|exact F4].
    unfold val. cbn [denote]. fold (val e1) (val e2). rewrite <- V1, <- V2.
    apply Z.mul_nonneg_nonneg; apply value_of_nonneg; auto using canons_nonneg; unfold X; pose proof (pow2_pos w); lia.
  - destruct HR as (R1 & R2 & R3), HF as (F1 & F2 & F3).
    split; [now rewrite map_length, seq_length|]. split; auto. split; [eapply bounded_canon; [|apply HD]; lia|].
    unfold X. rewrite digits_value. apply Z.mod_small. exact F3.
  - destruct HR as (R1 & R2 & R3). destruct (IH1 R1 HF) as (L1 & B1 & C1 & V1).
    pose proof (size_pos w ins _ HI _ R1) as S1. destruct (limbs_of e1) as [|x l]; [cbn in L1; lia|].
    pose proof (shift_bound _ _ _ k (proj1 R2) B1) as HB. pose proof CAPACITY_lt. split; auto. split; auto.
    split; [eapply bounded_canon; [|exact HB]; lia|]. unfold val in *. cbn [denote]. rewrite <- V1. cbn [value_of]. ring.
  - destruct HR as (R1 & R2 & R3). destruct (IH1 R1 HF) as (L1 & B1 & C1 & V1).
    pose proof (scale_bound _ _ k (proj1 R2) B1) as HB. pose proof CAPACITY_lt. split; [now rewrite map_length|]. split; auto.
    split; [eapply bounded_canon; [|exact HB]; lia|]. rewrite value_scale, V1. reflexivity.
  - destruct HR as (R1 & R2), HF as (F1 & F2). destruct (IH1 R1 F1) as (L1 & B1 & C1 & V1). destruct (IH2 R2 F2) as (L2 & B2 & C2 & V2).
    split; [rewrite app_length; lia|]. split; [|split].
    + apply Forall_app. split; eapply max_bound; eauto.
    + apply Forall_app. auto.
    + rewrite value_of_app, V1, V2, L2. unfold val. cbn [denote]. rewrite pow2_mul. fold X. ring.
  - destruct HR as (R1 & R2 & R3 & R4 & R5), HF as (F1 & F2). destruct (IH1 R1 F1) as (L1 & B1 & C1 & V1). destruct (IH2 R2 F2) as (L2 & B2 & C2 & V2).
    split; [rewrite padded_length; [congruence|destruct (nth i cs false); cbn [wsel]; lia]|]. split; [|split].
    + apply padded_Forall; [pose proof (pow2_pos w); lia|]. destruct (nth i cs false); cbn [wsel]; [eapply Forall_impl; [|exact B2]|eapply Forall_impl; [|exact B1]]; cbv beta; lia.
    + apply padded_Forall; [apply canon_0|]. destruct (nth i cs false); cbn [wsel]; auto.
    + rewrite padded_value. unfold val in *. cbn [denote]. destruct (nth i cs false); cbn [wsel]; auto.
Qed.

Section Rho.
Context (rho : assignment) (one : rho ONE = 1) (md : mode).
Context (xs : list bignat) (bs : list bit).
Context (HX : forall i, (i < length ins)%nat -> exists b, nth_error xs i = Some b /\ of_shape w (nth i ins (0%nat, 0%Z)) b /\ is_bn rho md b (nth i As [])).
Context (HB : forall i, (i < length bs)%nat -> exists c, nth_error bs i = Some c /\ wire_bit rho (b_lc c) (nth i cs false) /\
  (md = Honest -> b_val c = Some (nth i cs false))).

Definition carried (e : expr) (b : bignat) : Prop :=
  of_shape w (size ins e, word w ins e) b /\ is_bn rho md b (limbs_of e).

Lemma shaped_of b n v : is_bn rho md b v -> limb_width (bparams b) = w -> length v = n -> forall M, max_word (bparams b) = M -> of_shape w (n, M) b.
Proof.
  intros (H1 & _ & H3 & _) H4 <- M HM. split; auto. split; auto. split; auto. exact (ev_length _ _ _ H1).
Qed.

Lemma circuit_awp e : md = Honest \/ no_concat e -> in_room w ins (length bs) e -> fits w ins vs cs e ->
  awp md rho (circuit xs bs e) (new_wires e) (carried e).
Proof.
  induction e as [i|e1 IH1 e2 IH2|e1 IH1 e2 IH2|e1 IH1 e2 IH2|e1 IH1 k|e1 IH1 k|e1 IH1 e2 IH2|i e1 IH1 e2 IH2];
    intros HN HR HF; pose proof (limbs_facts _ _ HR HF) as (LL & LB & LC & LV); cbn [in_room fits no_concat] in HN, HR, HF; cbn [circuit new_wires].
  - destruct (HX i HR) as (b & Eb & H1 & H2). rewrite Eb. split; [reflexivity|]. split; [exact H1|exact H2].
  - destruct HR as (R1 & R2 & R3), HF as (F1 & F2).
    pose proof (limbs_facts _ _ R1 F1) as (L1 & B1 & C1 & V1). pose proof (limbs_facts _ _ R2 F2) as (L2 & B2 & C2 & V2).
    apply awp_bind, awp_ns. eapply awp_mono; [apply IH1; tauto|]. intros x [(X1 & X2 & X3 & X4) XI]. cbn [fst snd] in *.
    apply awp_bind, awp_ns. eapply awp_mono; [apply IH2; tauto|]. intros y [(Y1 & Y2 & Y3 & Y4) YI]. cbn [fst snd] in *.
    destruct (is_bn_add rho md x y _ _ XI YI) as (c & H1 & H2 & H3); [congruence|exact LC|].
    eapply awp_lift; [exact H1|]. split; [|exact H3]. eapply shaped_of; [exact H3|rewrite H2; exact X1|exact LL|].
    rewrite H2. cbn [add_params max_word word]. congruence.
  - destruct HR as (R1 & R2 & R3 & R4 & R5), HF as (F1 & F2 & F3 & F4).
    pose proof (limbs_facts _ _ R1 F1) as (L1 & B1 & C1 & V1). pose proof (limbs_facts _ _ R2 F2) as (L2 & B2 & C2 & V2).
    pose proof (size_pos w ins _ HI _ R1) as S1. pose proof (size_pos w ins _ HI _ R2) as S2.
    apply awp_bind, awp_ns. eapply awp_mono; [apply IH1; tauto|]. intros x [(X1 & X2 & X3 & X4) XI]. cbn [fst snd] in *.
    apply awp_bind, awp_ns. eapply awp_mono; [apply IH2; tauto|]. intros y [(Y1 & Y2 & Y3 & Y4) YI]. cbn [fst snd] in *.
    apply awp_ns. set (P := limbs_of (EMul e1 e2)) in *.
    assert (HM : Z.max (mult_word x y) (2 ^ Z.of_nat w - 1) = mul_word w ins e1 e2).
    { unfold mult_word, mul_word. rewrite X2, X4, Y2, Y4. reflexivity. }
    pose proof (mult_awp rho one md x y (limbs_of e1) (limbs_of e2) P) as K. cbv zeta in K. rewrite X1, HM, L1, L2 in K.
    eapply awp_mono; [apply K; clear K; auto|].
    + unfold in_word. rewrite X4. exact B1.
    + unfold in_word. rewrite Y4. exact B2.
    + unfold P. cbn [limbs_of]. apply digits_range.
    + fold X. rewrite V1, V2, LV. reflexivity.
    + fold X. rewrite LV. exact F3.
    + cbv beta. intros p (H1 & _ & H3). split; [|exact H1]. eapply shaped_of; [exact H1|rewrite H3; reflexivity|exact LL|rewrite H3; reflexivity].
  - destruct HR as (R1 & R2 & R3 & R4 & R5), HF as (F1 & F2 & F3).
    pose proof (limbs_facts _ _ R1 F1) as (L1 & B1 & C1 & V1). pose proof (limbs_facts _ _ R2 F2) as (L2 & B2 & C2 & V2).
    pose proof (size_pos w ins _ HI _ R1) as S1. pose proof (size_pos w ins _ HI _ R2) as S2.
    apply awp_bind, awp_ns. eapply awp_mono; [apply IH1; tauto|]. intros x [(X1 & X2 & X3 & X4) XI]. cbn [fst snd] in *.
    apply awp_bind, awp_ns. eapply awp_mono; [apply IH2; tauto|]. intros y [(Y1 & Y2 & Y3 & Y4) YI]. cbn [fst snd] in *.
    cbv zeta. set (D := limbs_of (ESub e1 e2)) in *.
    assert (HM : sub_word x y = dif_word w ins e1 e2).
    { unfold sub_word, dif_word. rewrite X1, X4, Y4. reflexivity. }
    assert (RD : Forall (fun v => 0 <= v < 2 ^ Z.of_nat w) D) by apply digits_range.
    pose proof (sub_awp rho one md x y (limbs_of e1) (limbs_of e2) D) as K. cbv zeta in K. rewrite X1, HM, L1 in K.
    apply awp_bind, awp_ns. eapply awp_mono; [apply K; clear K; auto|].
    + unfold in_word. rewrite X4. exact B1.
    + unfold in_word. rewrite Y4. exact B2.
    + rewrite Y4. eapply word_pos; eauto.
    + fold X. rewrite V1, V2, LV. unfold val. cbn [denote]. ring.
    + apply sides_zero_same; [apply R5|lia|rewrite rsum_length; lia|]. rewrite rsum_length, LL. cbn [size]. f_equal. lia.
    + cbv beta. intros d (H1 & H2). assert (Wd : limb_width (bparams d) = w) by (rewrite H2; reflexivity).
      apply awp_bind, awp_ns. eapply awp_mono; [rewrite <- Wd; apply (assert_well_formed_awp rho one md d D H1)|].
      * rewrite Wd, width1_pos by auto. eapply Forall_impl; [|exact RD]. cbv beta. lia.
      * intros _. rewrite Wd. lia.
      * intros _ _. split; auto. split; [|exact H1]. eapply shaped_of; [exact H1|exact Wd|exact LL|]. rewrite H2. apply params_word.
  - destruct HR as (R1 & R2 & R3). pose proof (limbs_facts _ _ R1 HF) as (L1 & B1 & C1 & V1).
    pose proof (size_pos w ins _ HI _ R1) as S1.
    apply awp_bind, awp_ns. eapply awp_mono; [apply IH1; tauto|]. intros x [(X1 & X2 & X3 & X4) XI]. cbn [fst snd] in *.
    pose proof (is_bn_shaped _ _ _ _ XI) as SX.
    destruct (shift_spec x k SX) as (c & H1 & H2 & H3 & H4 & H5 & H6); auto.
    { intros H0. rewrite H0 in X3. cbn in X3. lia. }
    { rewrite X4. exact R3. }
    assert (IC : is_bn rho md c (limbs_of (EShift e1 k))).
    { cbn [limbs_of] in *. destruct (limbs_of e1) as [|v l] eqn:El; [cbn in L1; lia|].
      destruct XI as (I1 & I2 & I3 & I4 & I5). split; [now apply H5|]. split; [apply H2|]. split; [rewrite H3; exact I3|]. split; [exact LC|].
      intros Hm. destruct (I5 Hm) as [J1 J2]. split.
      - rewrite (H6 _ _ J1). inversion LC; subst. now rewrite fmk_id.
      - rewrite H4, J2, H3. cbn [option_map limb_width value_of]. f_equal. ring. }
    eapply awp_lift; [exact H1|]. split; [|exact IC]. eapply shaped_of; [exact IC|rewrite H3; exact X1|exact LL|].
    rewrite H3. cbn [max_word word]. congruence.
  - destruct HR as (R1 & R2 & R3). pose proof (limbs_facts _ _ R1 HF) as (L1 & B1 & C1 & V1).
    apply awp_bind, awp_ns. eapply awp_mono; [apply IH1; tauto|]. intros x [(X1 & X2 & X3 & X4) XI]. cbn [fst snd] in *.
    pose proof (is_bn_shaped _ _ _ _ XI) as SX. pose proof (word_pos w ins _ HI _ R1) as P1.
    destruct (top_scale x k SX R2) as (c & H1 & H2 & H3 & H4 & _ & _); [lia|lia|].
    assert (HK : limb_values c = option_map (map (fun v => fmul v k)) (limb_values x) /\ value c = option_map (fun v => v * k) (value x)).
    { unfold scale in H1. destruct (_ <=? _); [|discriminate]. assert (Hc : c = mkBigNat (map (lc_scale k) (limbs x))
          (option_map (map (fun v => fmul v k)) (limb_values x)) (option_map (fun v => v * f_to_nat k) (value x))
          (mkParams (min_bits (bparams x)) (max_word (bparams x) * f_to_nat k) (limb_width (bparams x)) (n_limbs (bparams x)))) by congruence.
      rewrite Hc. cbn [limb_values value]. rewrite f_to_nat_canon by auto. auto. }
    destruct HK as [HK1 HK2]. destruct (scale_inv _ _ _ H1 R2) as (P2 & P3).
    assert (IC : is_bn rho md c (limbs_of (EScale e1 k))).
    { cbn [limbs_of] in *. destruct XI as (I1 & I2 & I3 & I4 & I5). split; [rewrite P2; now apply scale_ev|]. split; [apply H2|].
      split; [rewrite P3, map_length; exact I3|]. split; [exact LC|].
      intros Hm. destruct (I5 Hm) as [J1 J2]. rewrite HK1, HK2, J1, J2, H4. cbn [option_map]. rewrite value_scale. split; auto.
      f_equal. rewrite <- (map_fmk_canon _ LC), map_map. reflexivity. }
    eapply awp_lift; [exact H1|]. split; [|exact IC]. eapply shaped_of; [exact IC|congruence|exact LL|].
    rewrite H3. cbn [word]. congruence.
  - destruct HN as [Hm|[]]. destruct HR as (R1 & R2), HF as (F1 & F2).
    pose proof (limbs_facts _ _ R1 F1) as (L1 & B1 & C1 & V1). pose proof (limbs_facts _ _ R2 F2) as (L2 & B2 & C2 & V2).
    apply awp_bind, awp_ns. eapply awp_mono; [apply IH1; tauto|]. intros x [(X1 & X2 & X3 & X4) XI]. cbn [fst snd] in *.
    apply awp_bind, awp_ns. eapply awp_mono; [apply IH2; tauto|]. intros y [(Y1 & Y2 & Y3 & Y4) YI]. cbn [fst snd] in *.
    assert (HW : limb_width (bparams x) = limb_width (bparams y)) by congruence.
    destruct XI as (I1 & I2 & I3 & I4 & I5), YI as (K1 & K2 & K3 & K4 & K5).
    destruct (I5 Hm) as [I6 I7]. destruct (K5 Hm) as [K6 K7].
    eapply awp_lift.
    { unfold concat, width_agreement. rewrite HW, Nat.eqb_refl. cbn [rbind]. reflexivity. }
    set (c := mkBigNat _ _ _ _).
    assert (IC : is_bn rho md c (limbs_of (EConcat e1 e2))).
    { cbn [limbs_of] in *. split; [apply Forall2_app; auto|]. split.
      - unfold lv_ok. cbn [c limb_values limbs]. rewrite I6, K6. rewrite !app_length, (ev_length _ _ _ I1), (ev_length _ _ _ K1). auto.
      - split; [cbn [c bparams n_limbs]; rewrite app_length; lia|]. split; auto. intros _. cbn [c limb_values value bparams limb_width].
        rewrite I6, I7, K6, K7. split; auto. f_equal. rewrite value_of_app, K3, HW, Z.shiftl_mul_pow2, pow2_mul by lia. ring. }
    split; [|exact IC]. eapply shaped_of; [exact IC|exact Y1|exact LL|]. cbn [c bparams max_word word]. congruence.
  - destruct HR as (R1 & R2 & R3 & R4 & R5), HF as (F1 & F2).
    pose proof (limbs_facts _ _ R1 F1) as (L1 & B1 & C1 & V1). pose proof (limbs_facts _ _ R2 F2) as (L2 & B2 & C2 & V2).
    pose proof (size_pos w ins _ HI _ R1) as S1.
    apply awp_bind, awp_ns. eapply awp_mono; [apply IH1; tauto|]. intros x [(X1 & X2 & X3 & X4) XI]. cbn [fst snd] in *.
    apply awp_bind, awp_ns. eapply awp_mono; [apply IH2; tauto|]. intros y [(Y1 & Y2 & Y3 & Y4) YI]. cbn [fst snd] in *.
    destruct (HB i R3) as (c & Ec & Hc1 & Hc2). rewrite Ec. apply awp_ns.
    pose proof (mux_awp rho md c (nth i cs false) x y (limbs_of e1) (limbs_of e2) Hc1 Hc2 XI YI) as K. cbv zeta in K. rewrite X1 in K.
    eapply awp_mono; [apply K; clear K; auto|].
    + intros _. split; [lia|]. split; auto.
      destruct (nth i cs false); cbn [wsel]; [eapply Forall_impl; [|exact B2]|eapply Forall_impl; [|exact B1]]; cbv beta; lia.
    + cbv beta. intros o (H1 & H2). split; [|exact H1]. eapply shaped_of; [exact H1|rewrite H2; reflexivity|exact LL|rewrite H2; apply params_word].
Qed.
End Rho.
End Complete.


(** ** Final forms *)
Lemma Forall2_nth_error {A B} (R : A -> B -> Prop) l1 l2 : Forall2 R l1 l2 -> forall i b d, nth_error l2 i = Some b -> R (nth i l1 d) b.
Proof. induction 1; intros i b d Hi; destruct i; cbn in *; try discriminate; eauto. injection Hi as <-. auto. Qed.
Lemma Forall2_nth_ex {A B} (R : A -> B -> Prop) l1 l2 : Forall2 R l1 l2 -> forall i d, (i < length l1)%nat -> exists b, nth_error l2 i = Some b /\ R (nth i l1 d) b.
Proof. induction 1; intros i d' Hi; destruct i; cbn in *; try lia; eauto. apply IHForall2. lia. Qed.
Lemma Forall2_turn {A B} (R : A -> B -> Prop) l1 l2 : Forall2 R l1 l2 -> Forall2 (fun b a => R a b) l2 l1.
Proof. induction 1; constructor; auto. Qed.
Lemma map_nth_error' {A} (f : A -> Z) l i b : nth_error l i = Some b -> nth i (map f l) 0 = f b.
Proof. intros H. apply nth_error_nth. now apply map_nth_error. Qed.

Section Value.
Context (rho : assignment) (w : nat) (ins : list (nat * Z)) (xs : list bignat) (bs : list bit) (cs : list bool).
Context (HX : Forall2 (of_shape w) ins xs) (HB : Forall (bounded rho) xs) (HC : Forall2 (fun c x => feval rho (b_lc c) = Z.b2z x) bs cs).
Lemma inputs_hold i b : nth_error xs i = Some b ->
  of_shape w (nth i ins (0%nat, 0%Z)) b /\ bounded rho b /\ int_of rho b = nth i (map (int_of rho) xs) 0.
Proof.
  intros Hi. split; [eapply Forall2_nth_error; eauto|]. split; [|symmetry; now apply map_nth_error'].
  rewrite Forall_forall in HB. apply HB. eapply nth_error_In; eauto.
Qed.
Lemma bits_hold i c : nth_error bs i = Some c -> wire_bit rho (b_lc c) (nth i cs false).
Proof.
  intros Hi. pose proof (Forall2_nth_error _ _ _ (Forall2_turn _ _ _ HC) i c false Hi) as K. cbv beta in K.
  unfold wire_bit. rewrite <- K. symmetry. apply eqp_feval.
Qed.
End Value.

Lemma top_expr_value wit w ins xs bs cs e s b s' rho :
  run wit (circuit xs bs e) s = (Ok b, s') -> sat rho s' ->
  (1 <= w)%nat -> ins_ok ins -> Forall2 (of_shape w) ins xs -> Forall (bounded rho) xs ->
  Forall2 (fun c x => feval rho (b_lc c) = Z.b2z x) bs cs ->
  in_room w ins (length bs) e ->
  of_shape w (size ins e, word w ins e) b /\ bounded rho b /\
  int_of rho b = denote w ins (map (int_of rho) xs) cs e /\ fits w ins (map (int_of rho) xs) cs e.
Proof.
  intros Hr Hs Hw HI HX HB HC HR.
  pose proof (swp_run_any _ _ _ _ _ _ _ Hr Hs (circuit_swp rho (proj1 Hs) w ins HI Hw xs bs (map (int_of rho) xs) cs
    (inputs_hold rho w ins xs HX HB) (bits_hold rho bs cs HC) Any e HR)) as K.
  cbv beta in K. destruct K as [(K1 & K2 & K3) K4]. auto.
Qed.

Lemma identity_swp rho md w ins xs bs cs e1 e2 : rho ONE = 1 ->
  (1 <= w)%nat -> ins_ok ins -> Forall2 (of_shape w) ins xs -> Forall (bounded rho) xs ->
  Forall2 (fun c x => feval rho (b_lc c) = Z.b2z x) bs cs ->
  in_room w ins (length bs) e1 -> in_room w ins (length bs) e2 ->
  group_no_wrap (Z.max (word w ins e1) (word w ins e2)) w ->
  swp md rho (identity xs bs e1 e2) (fun _ => fits w ins (map (int_of rho) xs) cs e1 /\ fits w ins (map (int_of rho) xs) cs e2 /\
    denote w ins (map (int_of rho) xs) cs e1 = denote w ins (map (int_of rho) xs) cs e2).
Proof.
  intros one Hw HI HX HB HC R1 R2 HN. unfold identity.
  pose proof (circuit_swp rho one w ins HI Hw xs bs (map (int_of rho) xs) cs (inputs_hold rho w ins xs HX HB) (bits_hold rho bs cs HC) md) as K.
  apply swp_bind, swp_ns. eapply swp_mono; [apply K, R1|]. cbv beta. intros x [[(X1 & X2 & X3 & X4) [XB XV]] XF].
  apply swp_bind, swp_ns. eapply swp_mono; [apply K, R2|]. cbv beta. intros y [[(Y1 & Y2 & Y3 & Y4) [YB YV]] YF]. cbn [fst snd] in *.
  apply bounded_in_word in XB, YB. apply swp_ns.
  pose proof (regroup_swp rho one md x y _ _ (ev_wires rho (limbs x)) (ev_wires rho (limbs y)) XB YB) as G. cbv zeta in G. rewrite X1, X4, Y4 in G.
  eapply swp_mono; [exact (G HN)|]. cbv beta. intros _ (_ & _ & _ & H & _). split; auto. split; auto.
  rewrite <- XV, <- YV. unfold int_of. rewrite X1, Y1. exact H.
Qed.

Lemma top_identity_sound wit w ins xs bs cs e1 e2 s u s' rho :
  run wit (identity xs bs e1 e2) s = (Ok u, s') -> sat rho s' ->
  (1 <= w)%nat -> ins_ok ins -> Forall2 (of_shape w) ins xs -> Forall (bounded rho) xs ->
  Forall2 (fun c x => feval rho (b_lc c) = Z.b2z x) bs cs ->
  in_room w ins (length bs) e1 -> in_room w ins (length bs) e2 ->
  group_no_wrap (Z.max (word w ins e1) (word w ins e2)) w ->
  denote w ins (map (int_of rho) xs) cs e1 = denote w ins (map (int_of rho) xs) cs e2.
Proof.
  intros Hr Hs Hw HI HX HB HC R1 R2 HN.
  exact (proj2 (proj2 (swp_run_any _ _ _ _ _ _ _ Hr Hs (identity_swp rho Any w ins xs bs cs e1 e2 (proj1 Hs) Hw HI HX HB HC R1 R2 HN)))).
Qed.

Section Inputs.
Context (w : nat) (ins : list (nat * Z)) (As : list (list Z)).

Definition limbs_ok : Prop := forall i, (i < length ins)%nat -> length (nth i As []) = fst (nth i ins (0%nat, 0%Z)) /\
  Forall (fun v => 0 <= v <= snd (nth i ins (0%nat, 0%Z))) (nth i As []) /\ Forall canon (nth i As []).

Lemma inputs_are rho md xs : Forall2 (of_shape w) ins xs -> Forall2 (fun x A => is_bn rho md x A /\ in_word x A) xs As ->
  limbs_ok /\ forall i, (i < length ins)%nat -> exists b, nth_error xs i = Some b /\ of_shape w (nth i ins (0%nat, 0%Z)) b /\ is_bn rho md b (nth i As []).
Proof.
  intros H1 H2.
  assert (K : forall i, (i < length ins)%nat -> exists b, nth_error xs i = Some b /\ of_shape w (nth i ins (0%nat, 0%Z)) b /\ is_bn rho md b (nth i As []) /\ in_word b (nth i As [])).
  { intros i Hi. destruct (Forall2_nth_ex _ _ _ H1 i (0%nat, 0%Z) Hi) as (b & Eb & Hb). exists b. split; auto. split; auto.
    exact (Forall2_nth_error _ _ _ (Forall2_turn _ _ _ H2) i b [] Eb). }
  split; [|intros i Hi; destruct (K i Hi) as (b & K1 & K2 & K3 & _); eauto].
  intros i Hi. destruct (K i Hi) as (b & K1 & (S1 & S2 & S3 & S4) & (I1 & I2 & I3 & I4 & _) & K4).
  split; [congruence|]. split; auto. rewrite <- S4. exact K4.
Qed.
End Inputs.

Lemma bits_are rho md bs cs : Forall2 (fun c x => wire_bit rho (b_lc c) x /\ (md = Honest -> b_val c = Some x)) bs cs ->
  forall i, (i < length bs)%nat -> exists c, nth_error bs i = Some c /\ wire_bit rho (b_lc c) (nth i cs false) /\ (md = Honest -> b_val c = Some (nth i cs false)).
Proof.
  intros H i Hi. rewrite (Forall2_length _ _ _ H) in Hi. exact (Forall2_nth_ex _ _ _ (Forall2_turn _ _ _ H) i false Hi).
Qed.

Lemma top_expr_complete w ins xs bs As cs e s :
  let vs := map (value_of (2 ^ Z.of_nat w)) As in
  good s -> (1 <= w)%nat -> (w < NUM_BITS)%nat -> ins_ok ins ->
  Forall2 (of_shape w) ins xs -> Forall2 (bignat_at s) xs As -> Forall2 (bit_at s) bs cs ->
  in_room w ins (length bs) e -> fits w ins vs cs e ->
  exists b s' A, run true (circuit xs bs e) s = (Ok b, s') /\ good s' /\ of_shape w (size ins e, word w ins e) b /\
    bignat_at s' b A /\ value_of (2 ^ Z.of_nat w) A = denote w ins vs cs e.
Proof.
  intros vs G Hw HwN HI HX HA HB HR HF.
  assert (KX : forall rho, agree s rho -> rho ONE = 1 -> Forall2 (fun x A => is_bn rho Honest x A /\ in_word x A) xs As).
  { intros rho Ha one. clear -HA Ha one W. induction HA; constructor; auto. eapply bignat_at_is; eauto. }
  assert (KB : forall rho, agree s rho -> rho ONE = 1 -> Forall2 (fun c x => wire_bit rho (b_lc c) x /\ (Honest = Honest -> b_val c = Some x)) bs cs).
  { intros rho Ha one. clear -HB Ha one W. induction HB as [|c x bs cs [H1 H2] _ IH]; constructor; auto. split; auto.
    unfold wire_bit. rewrite <- (H2 rho Ha one). symmetry. apply eqp_feval. }
  pose proof (agree_asg s) as A0. pose proof (proj1 (G _ A0)) as O0.
  destruct (inputs_are w ins As _ _ _ HX (KX _ A0 O0)) as [LO _].
  destruct (honest_run (circuit xs bs e) s (new_wires w ins As cs e) (fun rho b => carried w ins As cs rho Honest e b) G) as (b & s' & H1 & H2 & H3 & H4).
  { intros rho Ha one. destruct (inputs_are w ins As _ _ _ HX (KX _ Ha one)) as [_ HX'].
    apply (circuit_awp w ins HI Hw HwN As cs LO rho one Honest xs bs HX' (bits_are _ _ _ _ (KB _ Ha one)) e); auto. }
  pose proof (limbs_facts w ins HI Hw HwN As cs LO e _ HR HF) as (L1 & L2 & L3 & L4).
  exists b, s', (limbs_of w ins As cs e). split; auto. split; auto.
  destruct (H4 _ (agree_asg s')) as [S (_ & _ & N & _ & V)]. destruct (V eq_refl) as [V1 V2]. split; [exact S|]. split; [|exact L4].
  apply mk_bignat_at; auto.
  - intros rho Ha _. destruct (H4 rho Ha) as [_ (K & _)]. exact K.
  - unfold in_word. destruct S as (_ & _ & _ & ->). exact L2.
Qed.

Section Prover.
Context (wit : bool) (w : nat) (ins : list (nat * Z)) (xs : list bignat) (bs : list bit) (As : list (list Z)) (cs : list bool) (s : st) (rho0 : assignment).
Context (G : good_for rho0 s) (Hw : (1 <= w)%nat) (HwN : (w < NUM_BITS)%nat) (HI : ins_ok ins)
  (HX : Forall2 (of_shape w) ins xs) (HA : Forall2 (bignat_for rho0 s) xs As) (HB : Forall2 (fun c x => carries_for rho0 s (b_lc c) (Z.b2z x)) bs cs).
Let vs := map (value_of (2 ^ Z.of_nat w)) As.

Lemma prover_bn rho : same_on s rho rho0 -> rho ONE = 1 -> Forall2 (fun x A => is_bn rho (md_of wit) x A /\ in_word x A) xs As.
Proof. intros Hs one. clear -HA Hs one G W. induction HA; constructor; auto. eapply bignat_for_is; eauto. Qed.
Lemma prover_bits rho : same_on s rho rho0 -> rho ONE = 1 ->
  Forall2 (fun c x => wire_bit rho (b_lc c) x /\ (md_of wit = Honest -> b_val c = Some x)) bs cs.
Proof.
  intros Hs one. pose proof HB as K. clear -K Hs one W. induction K as [|c x bs' cs' H _ IH]; [constructor|]. constructor; [split; [|apply md_of_not]|exact IH].
  unfold wire_bit. eapply carries_for_eqp; eauto.
Qed.
Lemma prover_values rho : same_on s rho rho0 -> rho ONE = 1 -> Forall (bounded rho) xs /\ map (int_of rho) xs = vs /\
  Forall2 (fun c x => feval rho (b_lc c) = Z.b2z x) bs cs.
Proof.
  intros Hs one. split; [|split].
  - pose proof (prover_bn rho Hs one) as K. clear -K W. induction K as [|x A xs As [(K1 & _ & _ & K4 & _) K2] _ IH]; constructor; auto.
    apply bounded_in_word. now rewrite (ev_canon _ _ _ K1 K4).
  - unfold vs. pose proof (prover_bn rho Hs one) as K. clear -K HX W. revert ins HX. induction K as [|x A xs As [(K1 & _ & _ & K4 & _) K2] _ IH]; intros ins HX; [reflexivity|].
    inversion HX as [|p ? ins' ? S HX']; subst. cbn [map]. rewrite (IH _ HX'). f_equal. unfold int_of. destruct S as (-> & _). now rewrite (ev_canon _ _ _ K1 K4).
  - clear -HB Hs one. induction HB; constructor; auto.
Qed.
Lemma prover_awp e : no_concat e -> in_room w ins (length bs) e -> fits w ins vs cs e ->
  forall rho, same_on s rho rho0 -> rho ONE = 1 -> awp (md_of wit) rho (circuit xs bs e) (new_wires w ins As cs e) (carried w ins As cs rho (md_of wit) e).
Proof.
  intros HN HR HF rho Hs one. destruct (inputs_are w ins As _ _ _ HX (prover_bn _ Hs one)) as [LO HX'].
  apply (circuit_awp w ins HI Hw HwN As cs LO rho one _ xs bs HX' (bits_are _ _ _ _ (prover_bits _ Hs one)) e); auto.
Qed.
Lemma prover_facts e : in_room w ins (length bs) e -> fits w ins vs cs e -> 
  length (limbs_of w ins As cs e) = size ins e /\ Forall (fun v => 0 <= v <= word w ins e) (limbs_of w ins As cs e) /\
  value_of (2 ^ Z.of_nat w) (limbs_of w ins As cs e) = denote w ins vs cs e.
Proof.
  intros HR HF. destruct (inputs_are w ins As _ _ _ HX (prover_bn _ (same_on_refl s rho0) (proj1 (here s rho0 G)))) as [LO _].
  destruct (limbs_facts w ins HI Hw HwN As cs LO e _ HR HF) as (L1 & L2 & L3 & L4). auto.
Qed.

Lemma top_expr_exact e b s' : no_concat e -> run wit (circuit xs bs e) s = (Ok b, s') -> in_room w ins (length bs) e ->
  ((exists rho, same_on s rho rho0 /\ sat rho s') <-> fits w ins vs cs e).
Proof.
  intros HN Hr HR. split.
  - intros (rho & Hs & Hsat). destruct (prover_values rho Hs (proj1 Hsat)) as (V1 & V2 & V3).
    destruct (top_expr_value wit w ins xs bs cs e s b s' rho Hr Hsat Hw HI HX V1 V3 HR) as (_ & _ & _ & K). now rewrite V2 in K.
  - intros HF. destruct (awp_run wit (circuit xs bs e) s rho0 (new_wires w ins As cs e) (fun _ _ => True) b s' G) with (2 := Hr) as (rho & H1 & H2 & _).
    + intros rho Hs one. eapply awp_mono; [apply prover_awp; auto|auto].
    + exists rho. split; auto. apply H2, same_on_refl.
Qed.

Lemma top_identity_exact e1 e2 u s' : no_concat e1 -> no_concat e2 -> run wit (identity xs bs e1 e2) s = (Ok u, s') ->
  in_room w ins (length bs) e1 -> in_room w ins (length bs) e2 -> size ins e1 = size ins e2 ->
  group_no_wrap (Z.max (word w ins e1) (word w ins e2)) w -> group_room (Z.max (word w ins e1) (word w ins e2)) w ->
  ((exists rho, same_on s rho rho0 /\ sat rho s') <->
   fits w ins vs cs e1 /\ fits w ins vs cs e2 /\ denote w ins vs cs e1 = denote w ins vs cs e2).
Proof.
  intros N1 N2 Hr R1 R2 HS HG HM. split.
  - intros (rho & Hs & Hsat). destruct (prover_values rho Hs (proj1 Hsat)) as (V1 & V2 & V3).
    pose proof (swp_run_any _ _ _ _ _ _ _ Hr Hsat (identity_swp rho Any w ins xs bs cs e1 e2 (proj1 Hsat) Hw HI HX V1 V3 R1 R2 HG)) as K.
    cbv beta in K. now rewrite V2 in K.
  - intros (F1 & F2 & HV). destruct (prover_facts e1 R1 F1) as (L1 & B1 & D1). destruct (prover_facts e2 R2 F2) as (L2 & B2 & D2).
    pose proof (size_pos w ins _ HI _ R1) as S1. pose proof (size_pos w ins _ HI _ R2) as S2.
    set (M := Z.max (word w ins e1) (word w ins e2)) in *.
    destruct (awp_run wit (identity xs bs e1 e2) s rho0 (new_wires w ins As cs e1 ++ new_wires w ins As cs e2 ++
      regroup_aux M w (limbs_of w ins As cs e1) (limbs_of w ins As cs e2)) (fun _ _ => True) u s' G) with (2 := Hr) as (rho & H1 & H2 & _).
    + intros rho Hs one. unfold identity. apply awp_bind, awp_ns. eapply awp_mono; [apply prover_awp; auto|]. intros x [(X1 & X2 & X3 & X4) (XI & XO & _)].
      apply awp_bind, awp_ns. eapply awp_mono; [apply prover_awp; auto|]. intros y [(Y1 & Y2 & Y3 & Y4) (YI & YO & _)]. cbn [fst snd] in *.
      apply awp_ns. pose proof (regroup_awp rho one (md_of wit) x y (limbs_of w ins As cs e1) (limbs_of w ins As cs e2)) as K. cbv zeta in K.
      rewrite X1, Y1, X4, Y4 in K. fold M in K. apply K; clear K; auto; try lia.
      * apply sides_zero_same; [apply HM|lia|lia|]. now rewrite L1, L2, HS.
      * apply md_of_not.
    + exists rho. split; auto. apply H2, same_on_refl.
Qed.
End Prover.
End Expr.
