(** sub and min. *)
From Coq Require Import ZArith Znumtheory Bool List Lia Setoid Morphisms ZifyBool ZifyNat.
From Verif.Model Require Import Base CS Bellpepper Util Poly Bignat Gadget.
From Verif.Spec Require Import Spec.
From Verif.Proofs Require Import Field Arith Convert Limbs Wp Lc BitNum PolyP BoolP BignatEq BignatAlloc Group Carry Regroup Mult MultC TopBits TopPoly TopBignat1 PureOps TopPure Owp MinBits MuxP.
Import ListNotations.
Local Open Scope Z_scope.

Section Sub.
Context {E : Env} {W : Wf E}.

Lemma add_inv a b c : add a b = Ok c -> n_limbs (bparams a) = length (limbs a) -> n_limbs (bparams b) = length (limbs b) ->
  limb_width (bparams b) = limb_width (bparams a) /\ bparams c = add_params a b /\
  forall rho xs ys, ev rho (limbs a) xs -> ev rho (limbs b) ys -> ev rho (limbs c) (rsum xs ys).
Proof.
  intros H A1 B1. unfold add, width_agreement in H.
  destruct (Nat.eqb_spec (limb_width (bparams a)) (limb_width (bparams b))) as [HW|]; [|discriminate]. cbn [rbind] in H.
  rewrite A1, B1 in H. set (n := Nat.max (length (limbs a)) (length (limbs b))) in *.
  set (g := fun i => if (i <? length (limbs a))%nat then
      if (i <? length (limbs b))%nat then lc_add (nth i (limbs a) lc_zero) (nth i (limbs b) lc_zero)
      else nth i (limbs a) lc_zero else nth i (limbs b) lc_zero).
  rewrite (rmapM_ok _ g) in H.
  2:{ intros i Hi. apply in_seq in Hi. now apply opt2_nth. }
  cbn [rbind] in H. apply rbind_ok in H. destruct H as (lvs & _ & H). injection H as <-.
  cbn [bparams limbs]. split; auto. split; [unfold add_params; rewrite A1, B1; reflexivity|].
  intros rho xs ys Ha Hb. pose proof (ev_length _ _ _ Ha) as La. pose proof (ev_length _ _ _ Hb) as Lb.
  apply (nth_Forall2 _ lc_zero 0); [rewrite map_length, seq_length, rsum_length, <- La, <- Lb; reflexivity|].
  rewrite map_length, seq_length. intros i Hi. rewrite rsum_nth, nth_map_seq by auto. unfold g.
  pose proof (ev_nth rho _ _ i Ha) as Ga. pose proof (ev_nth rho _ _ i Hb) as Gb.
  destruct (Nat.ltb_spec i (length (limbs a))), (Nat.ltb_spec i (length (limbs b))).
  - lcs. now rewrite Ga, Gb.
  - rewrite Ga, (nth_overflow ys) by lia. apply eqp_ring. ring.
  - rewrite Gb, (nth_overflow xs) by lia. apply eqp_ring. ring.
  - unfold n in Hi. lia.
Qed.

Definition sub_word (a b : bignat) : Z :=
  Z.max (max_word (bparams a)) (max_word (bparams b) + (2 ^ Z.of_nat (limb_width (bparams a)) - 1)).

Section Rho.
Context (rho : assignment) (one : rho ONE = 1).

Lemma sub_swp md a b A B :
  let w := limb_width (bparams a) in
  ev rho (limbs a) A -> ev rho (limbs b) B -> in_word a A -> in_word b B ->
  n_limbs (bparams a) = length A -> n_limbs (bparams b) = length B -> 0 <= max_word (bparams b) ->
  group_no_wrap (sub_word a b) w ->
  swp md rho (sub a b) (fun d => limb_width (bparams b) = w /\ bparams d = params_new w (length A) /\
    length (limbs d) = length A /\
    (range_wires rho w d -> value_of (2 ^ Z.of_nat w) A = value_of (2 ^ Z.of_nat w) B + int_of rho d)).
Proof.
  intros w HA HB WA WB NA NB H0 Hnw. unfold sub. sstep. sstep. apply alloc_from_nat_swp. intros d D1 D2.
  fold w in D1. rewrite NA in *. sstep. sstep. intros sum Hs.
  destruct (add_inv _ _ _ Hs) as (S1 & S2 & S3).
  { rewrite NB. symmetry. apply (ev_length _ _ _ HB). }
  { rewrite D1, D2. reflexivity. }
  rewrite D1 in S1. cbn [params_new limb_width] in S1.
  sstep. sstep.
  apply swp_mono with (Q := fun _ => range_wires rho w d -> value_of (2 ^ Z.of_nat w) A = value_of (2 ^ Z.of_nat w) B + int_of rho d).
  - apply swp_imp. intros HD.
    eapply swp_mono; [apply (regroup_swp rho one md a sum A (rsum B (wires rho (limbs d))))|]; auto.
    + apply S3; auto. apply ev_wires.
    + rewrite S2. cbn [add_params max_word]. apply rsum_word; auto.
      * unfold in_word. rewrite D1, params_word. eapply Forall_impl; [|exact HD]. cbv beta. lia.
      * rewrite D1, params_word. pose proof (pow2_pos w). lia.
    + fold w. rewrite S2. cbn [add_params max_word]. rewrite D1, params_word. exact Hnw.
    + cbv beta zeta. fold w. intros _ (_ & _ & _ & H & _). rewrite H, rsum_value. unfold int_of. rewrite D1. reflexivity.
  - cbv beta. intros _ H. sstep. auto.
Qed.

Lemma sub_awp md a b A B D :
  let w := limb_width (bparams a) in
  limb_width (bparams b) = w ->
  is_bn rho md a A -> is_bn rho md b B -> in_word a A -> in_word b B -> 0 <= max_word (bparams b) ->
  (1 <= w)%nat -> (w < NUM_BITS)%nat -> (1 <= length A)%nat -> length D = length A ->
  Forall (fun v => 0 <= v < 2 ^ Z.of_nat w) D ->
  value_of (2 ^ Z.of_nat w) A = value_of (2 ^ Z.of_nat w) B + value_of (2 ^ Z.of_nat w) D ->
  group_room (sub_word a b) w -> sides_zero (sub_word a b) w A (rsum B D) ->
  awp md rho (sub a b) (D ++ regroup_aux (sub_word a b) w A (rsum B D)) (fun d => is_bn rho md d D /\
    bparams d = params_new w (length A)).
Proof.
  intros w Hw HA HB WA WB H0 Hw1 HwN HLA HLD HD HV Hroom Hsides. unfold sub. apply awp_bind. astep. fold w.
  assert (NA : n_limbs (bparams a) = length A) by apply HA. rewrite NA.
  assert (HC : Forall canon D) by now apply (range_canon w).
  apply alloc_from_nat_awp; auto.
  - intros Hm. split; auto. split; auto. exists (value_of (2 ^ Z.of_nat w) D).
    rewrite (is_bn_value _ _ _ _ HA Hm), (is_bn_value _ _ _ _ HB Hm). cbn [grab rbind]. rewrite Hw. fold w.
    rewrite <- HLD. split; [f_equal; lia|]. split; [now apply range_value|now apply digits_unique].
  - intros d D1 D2. 
    assert (HWd : in_word d D) by (eapply range_in_word; eauto).
    assert (Hmd : max_word (bparams d) = 2 ^ Z.of_nat w - 1) by (rewrite D2; apply params_word).
    assert (HR : Forall (fun v => 0 <= v <= max_word (bparams b) + max_word (bparams d)) (rsum B D)).
    { apply rsum_word; auto. rewrite Hmd. pose proof (pow2_pos w). lia. }
    assert (HM : sub_word a b < modulus).
    { apply (group_room_word _ w); auto. unfold sub_word. pose proof (pow2_pos w). fold w. lia. }
    destruct (is_bn_add rho md b d B D) as (c & C1 & C2 & C3); auto.
    + rewrite D2. exact Hw.
    + eapply bounded_canon; [|exact HR]. rewrite Hmd. unfold sub_word in HM. fold w in HM. lia.
    + rewrite C1. cbn [lift bind]. apply awp_bind_all. astep.
      assert (HMc : Z.max (max_word (bparams a)) (max_word (bparams c)) = sub_word a b).
      { rewrite C2. cbn [add_params max_word]. rewrite Hmd. reflexivity. }
      pose proof (regroup_awp rho one md a c A (rsum B D)) as HG. cbv zeta in HG. fold w in HG. rewrite HMc in HG.
      eapply awp_mono; [apply HG; clear HG|]; auto.
      * rewrite C2. cbn [add_params limb_width]. auto.
      * apply HA.
      * apply C3.
      * apply HA.
      * apply C3.
      * rewrite C2. cbn [add_params max_word]. exact HR.
      * rewrite rsum_length. lia.
      * rewrite rsum_value. exact HV.
      * intros Hm. split; [apply HA|apply C3]; auto.
      * cbv beta. intros _ _. astep. auto.
Qed.

Lemma Forall_zero (P : Z -> Prop) n : P 0 -> Forall P (repeat 0 n).
Proof. intros H. apply Forall_forall. intros x Hx. apply repeat_spec in Hx. now subst. Qed.

(** min: the selector [x] is free; the only check compares the greater output with [b]. *)
Definition min_word (b : bignat) : Z := max_word (bparams b) + (2 ^ Z.of_nat (limb_width (bparams b)) - 1).
Definition min_aux (x : bool) (w : nat) (M : Z) (A B : list Z) : list Z :=
  let n := Nat.max (length A) (length B) in
  let G := padded n (wsel x B A) in
  let D := map (digit w (value_of (2 ^ Z.of_nat w) G - value_of (2 ^ Z.of_nat w) B)) (seq 0 n) in
  [Z.b2z x] ++ ((padded n (wsel x A B) ++ G) ++ (D ++ regroup_aux M w G (rsum B D))).

Lemma min_awp md a b A B x :
  let w := limb_width (bparams a) in
  let n := Nat.max (length A) (length B) in
  limb_width (bparams b) = w ->
  is_bn rho md a A -> is_bn rho md b B -> in_word b B -> 0 <= max_word (bparams b) ->
  Forall (fun v => 0 <= v < 2 ^ Z.of_nat w) A -> Forall (fun v => 0 <= v < 2 ^ Z.of_nat w) B ->
  (1 <= w)%nat -> (w < NUM_BITS)%nat -> (1 <= n)%nat ->
  (x = true -> value_of (2 ^ Z.of_nat w) B <= value_of (2 ^ Z.of_nat w) A) ->
  (md = Honest -> x = (value_of (2 ^ Z.of_nat w) B <? value_of (2 ^ Z.of_nat w) A)) ->
  group_room (min_word b) w ->
  awp md rho (bn_min a b) (min_aux x w (min_word b) A B) (fun r => is_bn rho md r (padded n (wsel x A B)) /\
    bparams r = params_new w n).
Proof.
  intros w n Hw HA HB WB H0 RA RB Hw1 HwN Hn HV Hx Hroom. unfold bn_min, min_aux. fold n.
  pose proof (pow2_pos w) as HP.
  set (G := padded n (wsel x B A)). set (X := 2 ^ Z.of_nat w) in *.
  assert (RG : Forall (fun v => 0 <= v < X) G) by (apply padded_Forall; [lia|now destruct x]).
  assert (LG : length G = n) by (apply padded_length; destruct x; cbn [wsel]; lia).
  assert (VG : value_of X G = value_of X (wsel x B A)) by apply padded_value.
  pose proof (value_of_nonneg X B) as VB0. 
  assert (VB : 0 <= value_of X B). { apply VB0; [lia|]. eapply Forall_impl; [|exact RB]. cbv beta; lia. }
  assert (HGB : 0 <= value_of X G - value_of X B < 2 ^ Z.of_nat (w * n)).
  { pose proof (range_value w G RG) as HR. fold X in HR. rewrite LG in HR. split; [|lia]. rewrite VG. destruct x; cbn [wsel]; [|lia]. specialize (HV eq_refl). lia. }
  set (D := map (digit w (value_of X G - value_of X B)) (seq 0 n)).
  assert (LD : length D = n) by (unfold D; rewrite map_length, seq_length; auto).
  assert (RD : Forall (fun v => 0 <= v < X) D) by apply digits_range.
  assert (VD : value_of X D = value_of X G - value_of X B).
  { unfold D. unfold X at 1. rewrite digits_value. apply Z.mod_small. exact HGB. }
  apply awp_bind. astep. eapply awp_mono; [apply (bit_alloc_awp rho one md _ x)|].
  { intros Hm. rewrite (is_bn_value _ _ _ _ HA Hm), (is_bn_value _ _ _ _ HB Hm). rewrite Hw, (Hx Hm). reflexivity. }
  cbv beta. intros sel [Hs1 Hs2]. apply awp_bind. astep.
  eapply awp_mono; [apply (switch_awp rho one md sel x a b A B); auto|].
  { intros Hm. rewrite Hs1, (is_bn_value _ _ _ _ HA Hm), (is_bn_value _ _ _ _ HB Hm), Hw, (Hx Hm). reflexivity. }
  cbv beta zeta. fold n w. intros [lesser greater] (L1 & L2 & L3 & L4). cbn [fst snd] in *.
  apply awp_bind_all. astep.
  assert (Hmw : max_word (bparams greater) = X - 1) by (rewrite L4; apply params_word).
  assert (Hsw : sub_word greater b = min_word b).
  { unfold sub_word, min_word. rewrite Hmw, L4, Hw. cbn [params_new limb_width]. fold X. lia. }
  assert (Hwg : limb_width (bparams greater) = w) by (rewrite L4; reflexivity).
  pose proof (sub_awp md greater b G B D) as HS. cbv zeta in HS. rewrite Hsw, Hwg in HS. fold X in HS.
  eapply awp_mono; [apply HS; clear HS|]; auto.
  - unfold in_word. rewrite Hmw. eapply Forall_impl; [|exact RG]. cbv beta; lia.
  - lia.
  - lia.
  - rewrite VD. ring.
  - apply sides_zero_same; [apply Hroom|lia|rewrite rsum_length; lia|]. rewrite rsum_length. f_equal. lia.
  - cbv beta. intros _ _. astep. auto.
Qed.

End Rho.
End Sub.
