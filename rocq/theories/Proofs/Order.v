(** C110: sorted lists; C111: an enforced minimum. *)
From Coq Require Import ZArith Znumtheory Bool List Permutation Sorting.Sorted Lia ZifyBool ZifyNat.
From Verif.Model Require Import Base CS Bellpepper Util Poly Bignat Gadget Fields F64 Median.
From Verif.Spec Require Import Spec SpecF64 SpecExpr SpecModular SpecExact SpecWide SpecSub SpecOrder.
From Verif.Proofs Require Import Field Arith Convert Limbs Wp Lc BitNum PolyP BoolP BignatEq BignatAlloc Group Carry Regroup Mult MultC TopBits TopPoly TopBignat1 PureOps TopPure Owp Pwp MinBits MuxP SubP TopBignat2 TopBignat3 Room TopBignat4 PrimeFields F64P TopF64 ExactP TopExact SubFree DividesP Total TopTotal DecP OutOfRange Relation Wide WidePower CheckedSub Residue Congruence Composite MedianP TopMedian.
Import ListNotations.
Local Open Scope Z_scope.

Section Order.
Context {E : Env} {W : Wf E} (HU : usual_field E).

(** A number whose wires have the digits [B]. *)
Definition ready (rho : assignment) (md : mode) (b : bignat) (B : list Z) : Prop :=
  is_bn rho md b B /\ limb_width (bparams b) = 64%nat /\ max_word (bparams b) = 2 ^ 64 - 1 /\ digits B /\ (1 <= length B)%nat.

(** The part of it that the constraints speak about. *)
Definition shown (rho : assignment) (b : bignat) (B : list Z) : Prop :=
  ev rho (limbs b) B /\ n_limbs (bparams b) = length B /\ limb_width (bparams b) = 64%nat /\ max_word (bparams b) = 2 ^ 64 - 1 /\ digits B /\ (1 <= length B)%nat.
Lemma ready_shown rho md b B : ready rho md b B -> shown rho b B.
Proof using. intros ((E1 & _ & N1 & _) & W1 & M1 & D1 & L1). repeat split; auto. Qed.

Lemma ready_for wit rho0 s rho b B : good_for rho0 s -> num64 rho0 s b B -> same_on s rho rho0 -> rho ONE = 1 -> ready rho (md_of wit) b B.
Proof using HU W.
  intros G H Hso one. destruct (num64_digits _ _ _ _ G H) as (D & L & U & N). destruct H as [H (W1 & M1 & _)].
  destruct (bignat_for_is _ _ _ _ _ wit G H Hso one) as [Ib _]. split; [exact Ib|]. auto.
Qed.
Lemma ready_at s rho b B : good s -> num64_at s b B -> agree s rho -> rho ONE = 1 -> ready rho Honest b B.
Proof using HU W.
  intros G H Hag one. pose proof (good_good_for s G) as GF. destruct (num64_digits _ _ _ _ GF (at_num64 _ _ _ H)) as (D & L & U & N).
  destruct H as [H (W1 & M1 & _)]. destruct (bignat_at_is _ _ _ _ H Hag one) as [Ib _]. split; [exact Ib|]. auto.
Qed.
Lemma ready_for_all wit rho0 s rho bs Bs : good_for rho0 s -> Forall2 (num64 rho0 s) bs Bs -> same_on s rho rho0 -> rho ONE = 1 -> Forall2 (ready rho (md_of wit)) bs Bs.
Proof using HU W. intros G H Hso one. induction H; constructor; auto. eapply ready_for; eauto. Qed.
Lemma ready_at_all s rho bs Bs : good s -> Forall2 (num64_at s) bs Bs -> agree s rho -> rho ONE = 1 -> Forall2 (ready rho Honest) bs Bs.
Proof using HU W. intros G H Hag one. induction H; constructor; auto. eapply ready_at; eauto. Qed.

(** The digits of a difference. *)
Definition gap64 (B A : list Z) : list Z := map (digit 64 (int64 B - int64 A)) (seq 0 (length B)).
Lemma gap64_facts B A : digits B -> digits A -> int64 A <= int64 B -> length (gap64 B A) = length B /\ digits (gap64 B A) /\ int64 B = int64 A + int64 (gap64 B A).
Proof using.
  intros DB DA H. pose proof (digits_bound B DB) as HB. pose proof (digits_bound A DA) as HA.
  destruct (digits_facts 64 (length B) (int64 B - int64 A) ltac:(lia)) as (K1 & K2 & K3). fold (gap64 B A) in K1, K2, K3.
  change (2 ^ Z.of_nat 64) with (2 ^ 64) in K2, K3. fold (int64 (gap64 B A)) in K3. split; [exact K1|]. split; [exact K2|lia].
Qed.
Definition less_aux (B A : list Z) : list Z := Composite.cmp_aux B A (gap64 B A).

Section Rho.
Variable (rho : assignment) (one : rho ONE = 1).

Lemma less_awp md b a B A : ready rho md b B -> ready rho md a A -> int64 A <= int64 B -> awp md rho (checked_sub b a) (less_aux B A) (fun _ => True).
Proof using HU W one.
  intros (I1 & W1 & M1 & D1 & L1) (I2 & W2 & M2 & D2 & L2) H. destruct (gap64_facts B A D1 D2 H) as (K1 & K2 & K3).
  apply (Composite.cmp_awp HU rho one md b a B A (gap64 B A)); auto.
Qed.
Lemma less_swp b a B A : shown rho b B -> shown rho a A -> swp Any rho (checked_sub b a) (fun _ => int64 A <= int64 B).
Proof using HU W one.
  intros (E1 & N1 & W1 & M1 & D1 & L1) (E2 & N2 & W2 & M2 & D2 & L2). destruct (word_sub HU) as [S1 S2].
  eapply swp_mono.
  { apply (checked_swp rho one Any b a B A E1 E2 (in_word64 b B M1 D1) (in_word64 a A M2 D2) N1 N2); [lia|lia|].
    unfold sub_word. rewrite W1, M1, M2. change (2 ^ Z.of_nat 64) with (2 ^ 64). rewrite Z.max_r by lia. exact S1. }
  cbv beta zeta. intros d (P1 & _ & P3 & P4). rewrite W1 in P1, P3, P4. unfold int_of in P4. rewrite P1 in P4. cbn [params_new limb_width] in P4. change (2 ^ Z.of_nat 64) with (2 ^ 64) in P3, P4.
  fold (int64 A) (int64 B) (int64 (wires rho (limbs d))) in P4. pose proof (digits_bound _ P3) as HB. lia.
Qed.
Lemma less_dec b a B A : ready rho Honest b B -> ready rho Honest a A -> (length A <= length B)%nat -> dec rho (checked_sub b a) (int64 A <= int64 B) (fun _ => True).
Proof using HU W one.
  intros (I1 & W1 & M1 & D1 & L1) (I2 & W2 & M2 & D2 & L2) H. apply (Composite.cmp_dec HU rho one b a B A); auto.
Qed.

(** ** Lists *)
Fixpoint ascend_aux (A : list Z) (Bs : list (list Z)) : list Z :=
  match Bs with [] => [] | B :: Bs => less_aux B A ++ ascend_aux B Bs end.

Lemma ascend_swp bs Bs : Forall2 (ready rho Any) bs Bs -> forall i a A, ready rho Any a A ->
  swp Any rho (ascend i a bs) (fun _ => Sorted Z.le (map int64 (A :: Bs))).
Proof using HU W one.
  induction 1 as [|b B bs Bs Hb HF IH]; intros i a A Ha; cbn [ascend]; sstep; [repeat constructor|].
  sstep. eapply swp_mono; [apply (less_swp b a B A (ready_shown _ _ _ _ Hb) (ready_shown _ _ _ _ Ha))|]. cbv beta. intros _ HL.
  eapply swp_mono; [apply (IH (S i) b B Hb)|]. cbv beta. intros _ HS. cbn [map] in *. constructor; [exact HS|]. constructor. exact HL.
Qed.
Lemma ascend_pwp md bs Bs : Forall2 (ready rho md) bs Bs -> forall i a A, ready rho md a A -> Sorted Z.le (map int64 (A :: Bs)) ->
  pwp md rho (ascend i a bs) (ascend_aux A Bs) (fun _ => True).
Proof using HU W one.
  induction 1 as [|b B bs Bs Hb HF IH]; intros i a A Ha HS; cbn [ascend ascend_aux]; [cbn [pwp]; auto|].
  cbn [map] in HS. apply Sorted_inv in HS. destruct HS as [HS HR]. apply HdRel_inv in HR.
  apply pwp_bind, pwp_ns. eapply pwp_mono; [apply awp_pwp, (less_awp md b a B A Hb Ha HR)|]. intros _ _. apply (IH (S i) b B Hb HS).
Qed.
Lemma ascend_hwp bs Bs : Forall2 (ready rho Honest) bs Bs -> forall i a A, ready rho Honest a A -> Sorted Z.le (map int64 (A :: Bs)) ->
  hwp rho (ascend i a bs) (fun _ => True).
Proof using HU W one.
  induction 1 as [|b B bs Bs Hb HF IH]; intros i a A Ha HS; cbn [ascend]; hstep; [exact I|].
  cbn [map] in HS. apply Sorted_inv in HS. destruct HS as [HS HR]. apply HdRel_inv in HR.
  hstep. eapply hwp_mono; [eapply hwp_awp; apply (less_awp Honest b a B A Hb Ha HR)|]. intros _ _. apply (IH (S i) b B Hb HS).
Qed.
Lemma ascend_dec bs Bs : Forall2 (ready rho Honest) bs Bs -> forall i a A, ready rho Honest a A -> Sorted Nat.le (map (@length Z) (A :: Bs)) ->
  dec rho (ascend i a bs) (Sorted Z.le (map int64 (A :: Bs))) (fun _ => True).
Proof using HU W one.
  induction 1 as [|b B bs Bs Hb HF IH]; intros i a A Ha HS; cbn [ascend].
  - apply (dec_iff rho _ True); [|apply dec_ret; exact I]. split; auto. repeat constructor.
  - cbn [map] in HS. apply Sorted_inv in HS. destruct HS as [HS HR]. apply HdRel_inv in HR.
    eapply dec_iff; [|eapply dec_bind; [apply dec_ns, (less_dec b a B A Hb Ha HR)|intros _ _; apply (IH (S i) b B Hb HS)]].
    cbn [map]. split.
    + intros [H1 H2]. constructor; auto.
    + intros H1. apply Sorted_inv in H1. destruct H1 as [H1 H2]. apply HdRel_inv in H2. auto.
Qed.
End Rho.

Lemma sorted_all l : Sorted Z.le l <-> StronglySorted Z.le l.
Proof using. split; [apply Sorted_StronglySorted; intros x y z; lia|apply StronglySorted_Sorted]. Qed.

Lemma order_exact wit bs Bs s u s' rho0 : good_for rho0 s -> Forall2 (num64 rho0 s) bs Bs -> run wit (ascending bs) s = (Ok u, s') ->
  (completed s rho0 s' (fun _ => True) <-> StronglySorted Z.le (map int64 Bs)).
Proof using HU W.
  intros G HB Hr. rewrite <- sorted_all. destruct HB as [|a A bs Bs Ha HB].
  { cbn [ascending run] in Hr. injection Hr as _ <-. split; [intros _; constructor|]. intros _. exists rho0. split; [apply same_on_refl|]. split; [apply G, same_on_refl|exact I]. }
  cbn [ascending] in Hr. split.
  - intros (rho & Hso & Hs & _). pose proof (proj1 Hs) as one.
    pose proof (ready_for true _ _ _ _ _ G Ha Hso one) as Ra. pose proof (ready_for_all true _ _ _ _ _ G HB Hso one) as Rb.
    exact (swp_run_any wit rho (ascend 0 a bs) s u s' (fun _ => Sorted Z.le (map int64 (A :: Bs))) Hr Hs (ascend_swp rho one bs Bs Rb 0 a A Ra)).
  - intros HS. destruct (pwp_run wit (ascend 0 a bs) s rho0 (ascend_aux A Bs) (fun _ _ => True) u s' G) as (rho & H1 & H2 & _); [|exact Hr|].
    { intros rho Hso one. apply (ascend_pwp rho one (md_of wit) bs Bs) with (A := A); auto; [eapply ready_for_all; eauto|eapply ready_for; eauto]. }
    exists rho. split; [exact H1|]. split; [apply H2, same_on_refl|exact I].
Qed.

Lemma order_honest bs Bs s : good s -> Forall2 (num64_at s) bs Bs -> StronglySorted Z.le (map int64 Bs) ->
  exists s', run true (ascending bs) s = (Ok tt, s') /\ good s'.
Proof using HU W.
  intros G HB HS. rewrite <- sorted_all in HS. destruct HB as [|a A bs Bs Ha HB]; [exists s; auto|]. cbn [ascending].
  destruct (hwp_run (ascend 0 a bs) s (fun _ _ => True) G) as ([] & s' & K1 & K2 & _).
  { intros rho Hag one. apply (ascend_hwp rho one bs Bs) with (A := A); auto; [eapply ready_at_all; eauto|eapply ready_at; eauto]. }
  exists s'. auto.
Qed.

Lemma order_verdict bs Bs s : good s -> Forall2 (num64_at s) bs Bs -> StronglySorted Nat.le (map (@length Z) Bs) ->
  exists s', run true (ascending bs) s = (Ok tt, s') /\ (good s' <-> StronglySorted Z.le (map int64 Bs)).
Proof using HU W.
  intros G HB HL. apply StronglySorted_Sorted in HL. destruct HB as [|a A bs Bs Ha HB].
  { exists s. split; [reflexivity|]. split; auto. intros _. constructor. }
  pose proof (sorted_all (map int64 (A :: Bs))) as HS. cbn [ascending]. destruct (dec_run (ascend 0 a bs) s (Sorted Z.le (map int64 (A :: Bs))) (fun _ _ => True) G) as ([] & s' & K1 & _ & K3).
  { intros rho Hag one. apply (ascend_dec rho one bs Bs) with (A := A); auto; [eapply ready_at_all; eauto|eapply ready_at; eauto]. }
  exists s'. split; [exact K1|]. now rewrite <- HS.
Qed.

(** ** Minimum *)
Lemma padded_digits n l : digits l -> digits (padded n l).
Proof using. intros H. apply (padded_Forall (fun v => 0 <= v < 2 ^ 64)); auto. lia. Qed.
Lemma padded_int n l : int64 (padded n l) = int64 l.
Proof using. apply padded_value. Qed.

Lemma digits_inj n v D : length D = n -> digits D -> int64 D = v -> forall D', length D' = n -> digits D' -> int64 D' = v -> D = D'.
Proof using.
  revert v D. induction n as [|n IH]; intros v D L1 D1 V1 D' L2 D2 V2; destruct D as [|x D], D' as [|y D']; try discriminate; auto.
  inversion D1 as [|? ? X1 F1]; inversion D2 as [|? ? X2 F2]; subst. unfold int64, value_of in V2. cbn [fold_right] in V2. fold (value_of (2 ^ 64) D) (value_of (2 ^ 64) D') in V2. fold (int64 D) (int64 D') in V2.
  assert (HX : x = y) by lia. subst y. f_equal. apply (IH (int64 D') D); auto; lia.
Qed.

(** The result of the selection. *)
Lemma selected_ready rho md x a b A B m : let n := Nat.max (length A) (length B) in
  ready rho md a A -> ready rho md b B -> is_bn rho md m (padded n (wsel x A B)) -> bparams m = params_new 64 n ->
  ready rho md m (padded n (wsel x A B)).
Proof using.
  intros n (_ & _ & _ & D1 & L1) (_ & _ & _ & D2 & L2) Im Pm. split; [exact Im|]. rewrite Pm. split; [reflexivity|]. split; [reflexivity|].
  split; [apply padded_digits; destruct x; auto|]. rewrite padded_length; [lia|]. destruct x; cbn [wsel]; lia.
Qed.
Lemma wsel_min A B : int64 (wsel (int64 B <? int64 A) A B) = Z.min (int64 A) (int64 B).
Proof using. destruct (Z.ltb_spec (int64 B) (int64 A)); cbn [wsel]; lia. Qed.

Lemma min_exact wit c a b A B D s m s' rho0 : good_for rho0 s -> num64 rho0 s a A -> num64 rho0 s b B -> run wit (chosen_min c a b) s = (Ok m, s') ->
  (completed s rho0 s' (fun rho => wires rho (limbs m) = D) <->
   length D = Nat.max (length A) (length B) /\ digits D /\ int64 D = Z.min (int64 A) (int64 B)).
Proof using HU W.
  intros G HA HB Hr. set (n := Nat.max (length A) (length B)).
  destruct (num64_digits _ _ _ _ G HA) as (DA & LA & _). destruct (num64_digits _ _ _ _ G HB) as (DB & LB & _). split.
  - intros (rho & Hso & Hs & <-). pose proof (proj1 Hs) as one.
    pose proof (ready_for true _ _ _ _ _ G HA Hso one) as Ra. pose proof (ready_for true _ _ _ _ _ G HB Hso one) as Rb. cbn [md_of] in Ra, Rb.
    set (Q := fun m : bignat => length (wires rho (limbs m)) = n /\ digits (wires rho (limbs m)) /\ int64 (wires rho (limbs m)) = Z.min (int64 A) (int64 B)).
    change (Q m). apply (swp_run_any wit rho (chosen_min c a b) s m s' Q Hr Hs). unfold chosen_min.
    sstep. sstep. eapply swp_mono; [apply (bit_alloc_swp rho one Any c)|]. cbv beta. intros bt [_ (x & Hx & _)].
    pose proof Ra as ((Ea & _ & Na & Ca & _) & Wa & Ma & _). pose proof Rb as ((Eb & _ & Nb & Cb & _) & Wb & Mb & _).
    pose proof (ev_length _ _ _ Ea) as La. pose proof (ev_length _ _ _ Eb) as Lb.
    sstep. sstep. eapply swp_mono; [apply (mux_swp rho Any bt x a b Hx); congruence|]. cbv beta zeta. rewrite La, Lb, Wa. fold n. intros y (_ & P1 & P2 & P3).
    assert (EW : wires rho (limbs (wsel x a b)) = wsel x A B) by (destruct x; cbn [wsel]; apply (ev_canon _ _ _); assumption).
    rewrite EW in P3. assert (DS : digits (wsel x A B)) by (destruct x; auto). assert (LS : (length (wsel x A B) <= n)%nat) by (destruct x; cbn [wsel]; lia).
    assert (Ry : shown rho y (padded n (wsel x A B))).
    { split; [rewrite <- P3; apply ev_wires|]. rewrite P1, padded_length by exact LS. split; [reflexivity|]. split; [reflexivity|]. split; [reflexivity|]. split; [now apply padded_digits|lia]. }
    sstep. sstep. eapply swp_mono; [apply (less_swp rho one a y _ _ (ready_shown _ _ _ _ Ra) Ry)|]. cbv beta. intros _ H1.
    sstep. sstep. eapply swp_mono; [apply (less_swp rho one b y _ _ (ready_shown _ _ _ _ Rb) Ry)|]. cbv beta. intros _ H2. rewrite padded_int in H1, H2.
    sstep. unfold Q. rewrite P3, padded_int. split; [now apply padded_length|]. split; [now apply padded_digits|].
    destruct x; cbn [wsel] in *; lia.
  - intros (LD & DD & VD). set (x := int64 B <? int64 A). set (P := padded n (wsel x A B)).
    assert (DS : digits (wsel x A B)) by (destruct x; auto). assert (LS : (length (wsel x A B) <= n)%nat) by (destruct x; cbn [wsel]; lia).
    assert (VP : int64 P = Z.min (int64 A) (int64 B)) by (unfold P; rewrite padded_int; apply wsel_min).
    assert (DP : D = P). { apply (digits_inj n (int64 P) D LD DD); [congruence|now apply padded_length|now apply padded_digits|reflexivity]. }
    destruct (pwp_run wit (chosen_min c a b) s rho0 ([Z.b2z x] ++ P ++ less_aux A P ++ less_aux B P ++ []) (fun rho m => ev rho (limbs m) P) m s' G) as (rho & H1 & H2 & H3); [|exact Hr|].
    { intros rho Hso one. pose proof (ready_for wit _ _ _ _ _ G HA Hso one) as Ra. pose proof (ready_for wit _ _ _ _ _ G HB Hso one) as Rb.
      unfold chosen_min. apply pwp_bind, pwp_ns. eapply pwp_mono; [apply awp_pwp, (bit_alloc_awp rho one (md_of wit) c x); intros K; exact (md_of_not wit _ K)|]. cbv beta. intros bt [_ Hx].
      pose proof (proj1 (proj2 Ra)) as Wa. pose proof (proj1 (proj2 Rb)) as Wb.
      apply pwp_bind, pwp_ns. eapply pwp_mono.
      { apply awp_pwp. pose proof (mux_awp rho (md_of wit) bt x a b A B Hx) as K. cbv zeta in K. rewrite Wa in K. fold n P in K.
        apply K; clear K; [intros K; exact (md_of_not wit _ K)|apply Ra|apply Rb|exact Wb|intros K; exfalso; exact (md_of_not wit _ K)]. }
      cbv beta. intros y [Iy Py]. assert (Ry : ready rho (md_of wit) y P) by exact (selected_ready rho (md_of wit) x a b A B y Ra Rb Iy Py).
      apply pwp_bind, pwp_ns. eapply pwp_mono; [apply awp_pwp, (less_awp rho one (md_of wit) a y A P Ra Ry); lia|]. intros _ _.
      apply pwp_bind, pwp_ns. eapply pwp_mono; [apply awp_pwp, (less_awp rho one (md_of wit) b y B P Rb Ry); lia|]. intros _ _.
      cbn [pwp]. split; [reflexivity|]. apply Iy. }
    exists rho. split; [exact H1|]. split; [apply H2, same_on_refl|]. rewrite DP. apply (ev_canon _ _ _ (H3 rho (same_on_refl _ _))). now apply (small_digits HU), padded_digits.
Qed.

Lemma min_honest a b A B s : good s -> num64_at s a A -> num64_at s b B ->
  exists m s', run true (chosen_min (Some (int64 B <? int64 A)) a b) s = (Ok m, s') /\ good s' /\ value m = Some (Z.min (int64 A) (int64 B)).
Proof using HU W.
  intros G HA HB. set (x := int64 B <? int64 A). set (n := Nat.max (length A) (length B)). set (P := padded n (wsel x A B)).
  assert (VP : int64 P = Z.min (int64 A) (int64 B)) by (unfold P; rewrite padded_int; apply wsel_min).
  destruct (hwp_run (chosen_min (Some x) a b) s (fun _ m => value m = Some (int64 P)) G) as (m & s' & K1 & K2 & _ & K4).
  { intros rho Hag one. pose proof (ready_at _ _ _ _ G HA Hag one) as Ra. pose proof (ready_at _ _ _ _ G HB Hag one) as Rb. unfold chosen_min.
    hstep. hstep. eapply hwp_mono; [apply (bit_alloc_hwp rho one x)|]. cbv beta. intros bt [Vx Hx].
    pose proof (proj1 (proj2 Ra)) as Wa. pose proof (proj1 (proj2 Rb)) as Wb. pose proof Ra as (_ & _ & _ & DA & LA). pose proof Rb as (_ & _ & _ & DB & LB).
    hstep. hstep. eapply hwp_mono.
    { eapply hwp_awp. pose proof (mux_awp rho Honest bt x a b A B Hx) as K. cbv zeta in K. rewrite Wa in K. fold n P in K.
      apply K; clear K; [auto|apply Ra|apply Rb|exact Wb|]. intros _. split; [lia|]. split; [apply (nb64 HU)|]. destruct x; auto. }
    cbv beta. intros y [Iy Py]. assert (Ry : ready rho Honest y P) by exact (selected_ready rho Honest x a b A B y Ra Rb Iy Py).
    hstep. hstep. eapply hwp_mono; [eapply hwp_awp; apply (less_awp rho one Honest a y A P Ra Ry); lia|]. intros _ _.
    hstep. hstep. eapply hwp_mono; [eapply hwp_awp; apply (less_awp rho one Honest b y B P Rb Ry); lia|]. intros _ _.
    hstep. rewrite (is_bn_value _ _ _ _ Iy eq_refl), Py. reflexivity. }
  exists m, s'. split; [exact K1|]. split; [exact K2|]. rewrite <- VP. exact (K4 _ (agree_asg s')).
Qed.

Lemma min_verdict x a b A B s : good s -> num64_at s a A -> num64_at s b B -> length A = length B ->
  exists m s', run true (chosen_min (Some x) a b) s = (Ok m, s') /\ value m = Some (if x then int64 B else int64 A) /\
    (good s' <-> (if x then int64 B <= int64 A else int64 A <= int64 B)).
Proof using HU W.
  intros G HA HB HL. set (n := Nat.max (length A) (length B)). set (P := padded n (wsel x A B)).
  assert (VP : int64 P = if x then int64 B else int64 A) by (unfold P; rewrite padded_int; destruct x; reflexivity).
  destruct (dec_run (chosen_min (Some x) a b) s (if x then int64 B <= int64 A else int64 A <= int64 B) (fun _ m => value m = Some (int64 P)) G) as (m & s' & K1 & K2 & K3).
  { intros rho Hag one. pose proof (ready_at _ _ _ _ G HA Hag one) as Ra. pose proof (ready_at _ _ _ _ G HB Hag one) as Rb. unfold chosen_min.
    eapply dec_step; [apply hwp_ns, (bit_alloc_hwp rho one x)|]. cbv beta. intros bt [Vx Hx].
    pose proof (proj1 (proj2 Ra)) as Wa. pose proof (proj1 (proj2 Rb)) as Wb. pose proof Ra as (_ & _ & _ & DA & LA). pose proof Rb as (_ & _ & _ & DB & LB).
    assert (LP : length P = n) by (apply padded_length; destruct x; cbn [wsel]; lia).
    eapply dec_step.
    { apply hwp_ns. eapply hwp_awp. pose proof (mux_awp rho Honest bt x a b A B Hx) as K. cbv zeta in K. rewrite Wa in K. fold n P in K.
      apply K; clear K; [auto|apply Ra|apply Rb|exact Wb|]. intros _. split; [lia|]. split; [apply (nb64 HU)|]. destruct x; auto. }
    cbv beta. intros y [Iy Py]. assert (Ry : ready rho Honest y P) by exact (selected_ready rho Honest x a b A B y Ra Rb Iy Py).
    eapply dec_iff; [|eapply dec_bind; [apply dec_ns, (less_dec rho one a y A P Ra Ry); lia|intros _ _; eapply dec_bind; [apply dec_ns, (less_dec rho one b y B P Rb Ry); lia|intros _ _; apply dec_ret]]].
    - rewrite VP. destruct x; lia.
    - rewrite (is_bn_value _ _ _ _ Iy eq_refl), Py. reflexivity. }
  exists m, s'. split; [exact K1|]. split; [|exact K3]. rewrite <- VP. exact (K2 _ (agree_asg s')).
Qed.
End Order.

(** A list in order is what sorting makes of it. *)
Lemma sorted_perm_eq (l : list Z) : StronglySorted Z.le l -> forall l', StronglySorted Z.le l' -> Permutation l l' -> l' = l.
Proof.
  induction l as [|x l IH]; intros H l' H' HP; [now apply Permutation_nil|].
  destruct l' as [|y l']; [now apply Permutation_sym, Permutation_nil in HP|].
  apply StronglySorted_inv in H as [H1 H2]. apply StronglySorted_inv in H' as [H1' H2']. rewrite Forall_forall in H2, H2'.
  assert (HX : x = y).
  { assert (I1 : In y (x :: l)) by (eapply Permutation_in; [apply Permutation_sym, HP|left; reflexivity]).
    assert (I2 : In x (y :: l')) by (eapply Permutation_in; [apply HP|left; reflexivity]).
    destruct I1 as [I1|I1]; [exact I1|]. destruct I2 as [I2|I2]; [now symmetry|]. specialize (H2 y I1). specialize (H2' x I2). lia. }
  subst y. f_equal. apply IH; auto. eapply Permutation_cons_inv; eauto.
Qed.

Lemma order_median {E : Env} {W : Wf E} (HU : usual_field E) wit bs Bs s u s' rho0 : good_for rho0 s -> Forall2 (num64 rho0 s) bs Bs -> bs <> [] ->
  run wit (ascending bs) s = (Ok u, s') -> completed s rho0 s' (fun _ => True) ->
  exists m, compute_median_timestamp (map int64 Bs) = Ok (m, map int64 Bs) /\ nth_error (map int64 Bs) (length bs / 2) = Some m.
Proof.
  intros G HB HN Hr HC. pose proof (Forall2_length _ _ _ HB) as HL. apply (order_exact HU wit bs Bs s u s' rho0 G HB Hr) in HC.
  destruct (top_median_ok (map int64 Bs)) as (m & l & M1 & M2 & M3 & M4 & _).
  { intros K. apply map_eq_nil in K. subst Bs. destruct bs; [now apply HN|discriminate]. }
  rewrite map_length, <- HL in M4. assert (EL : l = map int64 Bs) by (apply sorted_perm_eq; auto). subst l. exists m. auto.
Qed.

Lemma order_witness : let E := pallas_f64 log2_down true in
  let three x nx y ny z nz := let! ab := (let! a := alloc_from_nat (Ok x) 64 nx in let! b := alloc_from_nat (Ok y) 64 ny in Ret (a, b)) in let! c := alloc_from_nat (Ok z) 64 nz in Ret (ab, c) in
  (exists a b c s s', run true (three 5 3%nat 5 1%nat (2 ^ 64 + 1) 2%nat) st_init = (Ok (a, b, c), s) /\ good s /\ run true (ascending [a; b; c]) s = (Ok tt, s') /\ good s') /\
  (exists a b c s s', run true (three 7 1%nat 5 1%nat 9 1%nat) st_init = (Ok (a, b, c), s) /\ good s /\ run true (ascending [a; b; c]) s = (Ok tt, s') /\
     ~ good s' /\ ~ completed s (asg s) s' (fun _ => True)).
Proof.
  intros E three. pose proof (proj1 (usual_pallas log2_down true log2_down_faithful)) as HU. pose proof (wf_pallas_f64 log2_down true) as W. fold E in HU, W. split.
  - destruct (wide_three HU 5 3 5 1 (2 ^ 64 + 1) 2) as (a & b & c & A & B & C & s & R & G & NA & NB & NC & LA & LB & LC & VA & VB & VC); try lia.
    destruct (order_honest HU [a; b; c] [A; B; C] s G) as (s' & H1 & H2); [apply Forall2_cons; [exact NA|apply Forall2_cons; [exact NB|apply Forall2_cons; [exact NC|apply Forall2_nil]]]|cbn [map]; rewrite VA, VB, VC; repeat constructor; lia|].
    exists a, b, c, s, s'. auto.
  - destruct (wide_three HU 7 1 5 1 9 1) as (a & b & c & A & B & C & s & R & G & NA & NB & NC & LA & LB & LC & VA & VB & VC); try lia.
    assert (HN : ~ StronglySorted Z.le (map int64 [A; B; C])).
    { cbn [map]. rewrite VA, VB, VC. intros K. apply StronglySorted_inv in K as [_ K]. inversion K. lia. }
    destruct (order_verdict HU [a; b; c] [A; B; C] s G) as (s' & H1 & H2); [apply Forall2_cons; [exact NA|apply Forall2_cons; [exact NB|apply Forall2_cons; [exact NC|apply Forall2_nil]]]|cbn [map]; rewrite LA, LB, LC; repeat constructor|].
    exists a, b, c, s, s'. split; [exact R|]. split; [exact G|]. split; [exact H1|]. split; [rewrite H2; exact HN|].
    assert (HF : Forall2 (num64 (asg s) s) [a; b; c] [A; B; C]) by (apply Forall2_cons; [now apply at_num64|apply Forall2_cons; [now apply at_num64|apply Forall2_cons; [now apply at_num64|apply Forall2_nil]]]).
    rewrite (order_exact HU true [a; b; c] [A; B; C] s tt s' (asg s) (good_good_for s G) HF H1). exact HN.
Qed.

Lemma min_witness : let E := pallas_f64 log2_down true in let two x nx y ny := let! a := alloc_from_nat (Ok x) 64 nx in let! b := alloc_from_nat (Ok y) 64 ny in Ret (a, b) in
  (exists a b s m s', run true (two (2 ^ 64 + 12) 2%nat 13 3%nat) st_init = (Ok (a, b), s) /\ good s /\
     run true (chosen_min (Some true) a b) s = (Ok m, s') /\ good s' /\ value m = Some 13 /\
     completed s (asg s) s' (fun rho => wires rho (limbs m) = [13; 0; 0]) /\ ~ completed s (asg s) s' (fun rho => wires rho (limbs m) = [12; 1; 0])) /\
  (exists a b s m s', run true (two (2 ^ 64 + 12) 2%nat 13 2%nat) st_init = (Ok (a, b), s) /\ good s /\
     run true (chosen_min (Some false) a b) s = (Ok m, s') /\ ~ good s' /\ value m = Some (2 ^ 64 + 12)).
Proof.
  intros E two. pose proof (proj1 (usual_pallas log2_down true log2_down_faithful)) as HU. pose proof (wf_pallas_f64 log2_down true) as W. fold E in HU, W. split.
  - destruct (wide_two HU (2 ^ 64 + 12) 2 13 3) as (a & b & A & B & s & R & G & NA & NB & LA & LB & VA & VB); try lia.
    destruct (min_honest HU a b A B s G NA NB) as (m & s' & H1 & H2 & H3). rewrite VA, VB in H1, H3.
    pose proof (fun D => min_exact HU true _ a b A B D s m s' (asg s) (good_good_for s G) (at_num64 _ _ _ NA) (at_num64 _ _ _ NB) H1) as K. rewrite LA, LB, VA, VB in K.
    exists a, b, s, m, s'. split; [exact R|]. split; [exact G|]. split; [exact H1|]. split; [exact H2|]. split; [exact H3|]. split.
    + apply K. split; [reflexivity|]. split; [repeat constructor; lia|reflexivity].
    + intros N. apply K in N. destruct N as (_ & _ & N). discriminate N.
  - destruct (wide_two HU (2 ^ 64 + 12) 2 13 2) as (a & b & A & B & s & R & G & NA & NB & LA & LB & VA & VB); try lia.
    destruct (min_verdict HU false a b A B s G NA NB) as (m & s' & H1 & H2 & H3); [lia|]. rewrite VA, VB in *.
    exists a, b, s, m, s'. split; [exact R|]. split; [exact G|]. split; [exact H1|]. split; [rewrite H3; lia|exact H2].
Qed.
