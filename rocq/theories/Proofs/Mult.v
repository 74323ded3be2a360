(** src/mp/bignat.rs: multiplication and modular gadgets (C32-C37). *)
From Coq Require Import ZArith Bool List Lia Setoid Morphisms ZifyBool ZifyNat.
From Verif.Model Require Import Base CS Bellpepper Util Poly Bignat.
From Verif.Spec Require Import Spec.
From Verif.Proofs Require Import Field Arith Convert Limbs Wp Lc BitNum PolyP BoolP BignatEq BignatAlloc Group Carry Regroup TopPoly.
Import ListNotations.
Local Open Scope Z_scope.

(** ** Coefficient bounds *)
Lemma sum_n_rev n f : sum_n n f = sum_n n (fun i => f (n - 1 - i)%nat).
Proof.
  induction n; [reflexivity|]. rewrite (sum_n_S n (fun i => f (S n - 1 - i)%nat)). cbn [sum_n].
  replace (S n - 1 - 0)%nat with n by lia. rewrite IHn, Z.add_comm. f_equal.
  apply sum_n_ext. intros i Hi. f_equal. lia.
Qed.
Lemma conv_comm a b k : conv a b k = conv b a k.
Proof.
  unfold conv. rewrite sum_n_rev. apply sum_n_ext. intros i Hi.
  replace (S k - 1 - i)%nat with (k - i)%nat by lia. replace (k - (k - i))%nat with i by lia. ring.
Qed.
Lemma conv_nonneg a b k : Forall (fun d => 0 <= d) a -> Forall (fun d => 0 <= d) b -> 0 <= conv a b k.
Proof.
  intros Ha Hb. apply sum_n_nonneg. intros i _.
  apply Z.mul_nonneg_nonneg; apply (nth_range (fun d => 0 <= d)); auto; lia.
Qed.
Lemma conv_le_l a b k A B : 0 <= A -> 0 <= B -> Forall (fun d => 0 <= d <= A) a -> Forall (fun d => 0 <= d <= B) b ->
  conv a b k <= Z.of_nat (length a) * A * B.
Proof.
  intros HA HB Ha Hb. unfold conv.
  assert (Ra : forall i, 0 <= nth i a 0 <= A) by (intros; apply (nth_range (fun d => 0 <= d <= A)); auto; lia).
  assert (Rb : forall i, 0 <= nth i b 0 <= B) by (intros; apply (nth_range (fun d => 0 <= d <= B)); auto; lia).
  transitivity (sum_n (length a) (fun _ => A * B)); [|rewrite sum_n_const; lia].
  destruct (Nat.le_gt_cases (S k) (length a)) as [H|H].
  - transitivity (sum_n (S k) (fun _ => A * B)); [|rewrite !sum_n_const; nia].
    apply sum_n_le. intros i _. specialize (Ra i). specialize (Rb (k - i)%nat). nia.
  - rewrite (sum_n_extend (length a) (S k)); [|lia|].
    + apply sum_n_le. intros i _. cbv beta. specialize (Ra i). specialize (Rb (k - i)%nat). nia.
    + intros i Hi. cbv beta. rewrite nth_overflow by lia. ring.
Qed.
Lemma conv_bound a b k A B : Forall (fun d => 0 <= d <= A) a -> Forall (fun d => 0 <= d <= B) b ->
  0 <= conv a b k <= Z.of_nat (Nat.min (length a) (length b)) * A * B.
Proof.
  intros Ha Hb. split.
  - apply conv_nonneg; [eapply Forall_impl; [|exact Ha]|eapply Forall_impl; [|exact Hb]]; cbv beta; lia.
  - destruct a as [|x a]; [rewrite conv_nil_l; simpl; lia|].
    destruct b as [|y b]; [rewrite conv_comm, conv_nil_l; simpl; lia|].
    assert (0 <= A) by (inversion Ha; lia). assert (0 <= B) by (inversion Hb; lia).
    pose proof (conv_le_l (x :: a) (y :: b) k A B) as H1.
    pose proof (conv_le_l (y :: b) (x :: a) k B A) as H2. rewrite (conv_comm (y :: b)) in H2.
    destruct (Nat.min_spec (length (x :: a)) (length (y :: b))) as [[_ ->]|[_ ->]]; auto.
    rewrite <- Z.mul_assoc, (Z.mul_comm A B), Z.mul_assoc. auto.
Qed.
Lemma conv_list_bound a b n A B : Forall (fun d => 0 <= d <= A) a -> Forall (fun d => 0 <= d <= B) b ->
  Forall (fun d => 0 <= d <= Z.of_nat (Nat.min (length a) (length b)) * A * B) (map (conv a b) (seq 0 n)).
Proof. intros. apply Forall_map, Forall_forall. intros; now apply conv_bound. Qed.

Lemma digit_zero w v i : 0 <= v < 2 ^ Z.of_nat (w * i) -> digit w v i = 0.
Proof. intros H. unfold digit. rewrite Z.div_small by lia. apply Z.mod_0_l. pose proof (pow2_pos w). lia. Qed.

Lemma nth_skipn' {A} k (l : list A) d i : nth i (skipn k l) d = nth (k + i) l d.
Proof. revert l. induction k; intros [|x l]; simpl; auto. now destruct i. Qed.
Lemma value_high w k P : Forall (fun v => 0 <= v < 2 ^ Z.of_nat w) P ->
  (forall i, (k <= i)%nat -> nth i P 0 = 0) -> value_of (2 ^ Z.of_nat w) P < 2 ^ Z.of_nat (w * k).
Proof.
  intros HR HZ.
  assert (HV : value_of (2 ^ Z.of_nat w) P = value_of (2 ^ Z.of_nat w) (firstn k P)).
  { rewrite <- (firstn_skipn k P) at 1. rewrite value_of_app.
    enough (value_of (2 ^ Z.of_nat w) (skipn k P) = 0) by lia.
    rewrite value_of_sum. transitivity (sum_n (length (skipn k P)) (fun _ => 0)); [|apply sum_n_zero].
    apply sum_n_ext. intros i Hi. rewrite nth_skipn'. rewrite HZ; [ring|]. lia. }
  rewrite HV.
  assert (HF : Forall (fun v => 0 <= v < 2 ^ Z.of_nat w) (firstn k P)).
  { rewrite <- (firstn_skipn k P) in HR. now apply Forall_app in HR. }
  eapply Z.lt_le_trans; [apply value_of_bound; [apply pow2_pos|exact HF]|].
  rewrite <- pow2_mul. apply pow2_le. rewrite firstn_length. nia.
Qed.

Section Mult.
Context {E : Env} {W : Wf E}.

Lemma from_poly_bparams p w m : bparams (from_poly p w m) = mkParams 0 m w (length (p_coeffs p)).
Proof. reflexivity. Qed.

Section Rho.
Context (rho : assignment) (one : rho ONE = 1).

Definition rsum (P R : list Z) : list Z :=
  map (fun i => nth i P 0 + nth i R 0) (seq 0 (Nat.max (length P) (length R))).
Definition convs (A B : list Z) : list Z := map (conv A B) (seq 0 (length A + length B - 1)).
Lemma convs_length A B : length (convs A B) = (length A + length B - 1)%nat.
Proof. unfold convs. now rewrite map_length, seq_length. Qed.
Lemma convs_value X A B : value_of X (convs A B) = value_of X A * value_of X B.
Proof. unfold convs. apply value_of_conv. lia. Qed.
Lemma rsum_value X P R : value_of X (rsum P R) = value_of X P + value_of X R.
Proof. apply value_of_add; lia. Qed.
Lemma rsum_length P R : length (rsum P R) = Nat.max (length P) (length R).
Proof. unfold rsum. now rewrite map_length, seq_length. Qed.
Lemma rsum_bound P R A B : 0 <= A -> 0 <= B -> Forall (fun d => 0 <= d <= A) P -> Forall (fun d => 0 <= d <= B) R ->
  Forall (fun d => 0 <= d <= A + B) (rsum P R).
Proof.
  intros HA HB HP HR. apply Forall_map, Forall_forall. intros i _.
  assert (0 <= nth i P 0 <= A) by (apply (nth_range (fun d => 0 <= d <= A)); auto; lia).
  assert (0 <= nth i R 0 <= B) by (apply (nth_range (fun d => 0 <= d <= B)); auto; lia). lia.
Qed.

(** ** Soundness *)
Definition mult_word (a b : bignat) : Z :=
  product_word (n_limbs (bparams a)) (max_word (bparams a)) (n_limbs (bparams b)) (max_word (bparams b)).

Lemma wf_range (md : mode) b (Q : unit -> Prop) :
  (Forall (fun v => 0 <= v < 2 ^ Z.of_nat (width1 (limb_width (bparams b)))) (wires rho (limbs b)) -> Q tt) ->
  swp md rho (assert_well_formed b) Q.
Proof.
  intros HQ. eapply swp_mono; [apply assert_well_formed_swp; auto|]. intros [] H. now apply HQ.
Qed.

Lemma verify_mult_swp md a b prod A B P :
  let w := limb_width (bparams a) in
  let M := Z.max (mult_word a b) (max_word (bparams prod)) in
  let g := group_size M w in
  ev rho (limbs a) A -> ev rho (limbs b) B -> ev rho (limbs prod) P ->
  in_word a A -> in_word b B -> in_word prod P ->
  n_limbs (bparams a) = length A -> n_limbs (bparams b) = length B ->
  Z.of_nat (length A + length B - 1) < modulus -> group_no_wrap M w ->
  swp md rho (verify_mult a b prod) (fun _ =>
    (1 <= w)%nat /\ limb_width (bparams b) = w /\ limb_width (bparams prod) = w /\
    value_of (2 ^ Z.of_nat w) A * value_of (2 ^ Z.of_nat w) B = value_of (2 ^ Z.of_nat w) P /\
    forall i, (Nat.min (n_groups (length A + length B - 1) g) (n_groups (length P) g) * g <= i)%nat ->
      nth i P 0 = 0).
Proof.
  intros w M g Ha Hb Hp HA HB HP Na Nb Hn HM. unfold verify_mult.
  do 2 sstep. intros w1 Hw1. unfold width_agreement in Hw1.
  destruct (Nat.eqb_spec (limb_width (bparams a)) (limb_width (bparams b))) as [W1|]; [|discriminate].
  do 2 sstep. intros w2 Hw2. unfold width_agreement in Hw2.
  destruct (Nat.eqb_spec (limb_width (bparams a)) (limb_width (bparams prod))) as [W2|]; [|discriminate].
  clear Hw1 Hw2 w1 w2. change (Z.of_nat _ * _ * _) with (mult_word a b). do 2 sstep.
  eapply swp_mono; [apply (alloc_product_swp rho md (to_poly a) (to_poly b) A B); auto|].
  intros pp Hpp. cbv beta in Hpp. fold (convs A B) in Hpp. sstep.
  eapply swp_mono; [eapply (regroup_swp rho one md (from_poly pp (limb_width (bparams b)) (mult_word a b)) prod (convs A B) P)|];
    rewrite ?from_poly_bparams; cbn [limbs max_word limb_width]; rewrite <- ?W1; auto.
  - unfold mult_word, product_word. rewrite Na, Nb. apply conv_list_bound; auto.
  - fold w. fold M. fold g. cbv beta. rewrite convs_length, convs_value. intros _ (H1 & H2 & H3 & H4 & H5).
    split; auto. split; auto. split; auto. split; auto. intros i Hi. now apply H5.
Qed.

Lemma range_word w (b : bignat) n vs : bparams b = params_new w n -> (1 <= w)%nat ->
  Forall (fun v => 0 <= v < 2 ^ Z.of_nat (width1 w)) vs -> in_word b vs.
Proof.
  intros Hp Hw H. unfold in_word. rewrite Hp. change (max_word (params_new w n)) with (int_with_n_ones w).
  rewrite int_with_n_ones_spec. eapply Forall_impl; [|exact H]. cbv beta.
  rewrite width1_pos by auto. lia.
Qed.

Definition range_wires (w : nat) (b : bignat) : Prop :=
  Forall (fun v => 0 <= v < 2 ^ Z.of_nat w) (wires rho (limbs b)).

Lemma mult_swp md a b A B :
  let w := limb_width (bparams a) in
  let M := Z.max (mult_word a b) (2 ^ Z.of_nat w - 1) in
  let g := group_size M w in
  ev rho (limbs a) A -> ev rho (limbs b) B -> in_word a A -> in_word b B ->
  n_limbs (bparams a) = length A -> n_limbs (bparams b) = length B ->
  Z.of_nat (length A + length B - 1) < modulus -> group_no_wrap M w ->
  swp md rho (mult a b) (fun p =>
    limb_width (bparams b) = w /\ limb_width (bparams p) = w /\
    length (limbs p) = (length A + length B)%nat /\ range_wires w p /\
    value_of (2 ^ Z.of_nat w) A * value_of (2 ^ Z.of_nat w) B = int_of rho p /\
    int_of rho p < 2 ^ Z.of_nat (w * (n_groups (length A + length B - 1) g * g))).
Proof.
  intros w M g Ha Hb HA HB Na Nb Hn HM. unfold mult.
  do 2 sstep. intros w1 Hw1. unfold width_agreement in Hw1.
  destruct (Nat.eqb_spec (limb_width (bparams a)) (limb_width (bparams b))) as [W1|]; [|discriminate].
  clear w1 Hw1. rewrite <- W1. fold w. do 2 sstep. apply alloc_from_nat_swp. intros p0 Hp Lp.
  set (p := if _ : bool then _ else _).
  assert (Pl : limbs p = limbs p0) by (unfold p; destruct (_ && _); reflexivity).
  assert (Pw : limb_width (bparams p) = w /\ max_word (bparams p) = 2 ^ Z.of_nat w - 1).
  { assert (H0 : limb_width (bparams p0) = w /\ max_word (bparams p0) = int_with_n_ones w) by (rewrite Hp; auto).
    rewrite int_with_n_ones_spec in H0. unfold p; destruct (_ && _); exact H0. }
  clearbody p. destruct Pw as [Pw Pm]. rewrite Na, Nb in Lp. rewrite <- Pl in Lp.
  do 2 sstep. apply wf_range. intros HR. rewrite Pw in HR.
  destruct (Nat.eq_dec w 0) as [W0|W0].
  { do 2 sstep. unfold verify_mult. do 2 sstep. intros _ _. do 2 sstep. intros _ _. do 2 sstep.
    eapply swp_mono; [apply (alloc_product_swp rho md (to_poly a) (to_poly b) A B); auto|].
    intros pp _. sstep. apply regroup_w0. cbn. rewrite <- W1. exact W0. }
  rewrite width1_pos in HR by lia.
  do 2 sstep.
  eapply swp_mono; [eapply (verify_mult_swp md a b p A B); eauto|].
  - apply ev_wires.
  - unfold in_word. rewrite Pm. eapply Forall_impl; [|exact HR]. cbv beta. lia.
  - rewrite Pm. exact HM.
  - cbv beta. rewrite Pm. fold w. fold M. fold g. intros _ (H1 & H2 & H3 & H4 & H5). sstep.
    split; auto. split; auto. split; [lia|]. split; [exact HR|]. unfold int_of. rewrite Pw.
    split; auto. set (P := wires rho (limbs p)) in *.
    assert (LP : length P = (length A + length B)%nat) by (unfold P, wires; rewrite map_length; lia).
    rewrite LP in H5.
    set (k := (n_groups (length A + length B - 1) g * g)%nat) in *.
    apply value_high; auto. intros i Hi. apply H5. unfold k in Hi. nia.
Qed.

Lemma divides_swp md a b A B :
  let w := limb_width (bparams a) in
  let M := Z.max (product_word (length A) (max_word (bparams a)) (length B) (2 ^ Z.of_nat w - 1)) (max_word (bparams b)) in
  ev rho (limbs a) A -> ev rho (limbs b) B -> in_word a A -> in_word b B ->
  n_limbs (bparams a) = length A -> n_limbs (bparams b) = length B ->
  Z.of_nat (length A + length B - 1) < modulus -> group_no_wrap M w ->
  swp md rho (divides a b) (fun _ => limb_width (bparams b) = w /\
    (value_of (2 ^ Z.of_nat w) A | value_of (2 ^ Z.of_nat w) B)).
Proof.
  intros w M Ha Hb HA HB Na Nb Hn HM. unfold divides.
  do 2 sstep. intros w1 Hw1. unfold width_agreement in Hw1.
  destruct (Nat.eqb_spec (limb_width (bparams a)) (limb_width (bparams b))) as [W1|]; [|discriminate].
  clear w1 Hw1. rewrite <- W1. fold w. do 2 sstep. apply alloc_from_nat_swp. intros q Hp Lp. rewrite Nb in *.
  assert (Pw : limb_width (bparams q) = w /\ max_word (bparams q) = 2 ^ Z.of_nat w - 1).
  { rewrite Hp. split; auto. change (max_word (params_new w (length B))) with (int_with_n_ones w). apply int_with_n_ones_spec. }
  destruct Pw as [Pw Pm].
  do 2 sstep. apply wf_range. intros HR. rewrite Pw in HR.
  assert (LQ : length (wires rho (limbs q)) = length B) by (unfold wires; now rewrite map_length).
  destruct (Nat.eq_dec w 0) as [W0|W0].
  { sstep. unfold verify_mult. do 2 sstep. intros w1 Hw1. do 2 sstep. intros _ _. do 2 sstep.
    eapply swp_mono; [apply (alloc_product_swp rho md (to_poly a) (to_poly q) A (wires rho (limbs q))); auto|].
    - apply ev_wires.
    - rewrite LQ. auto.
    - intros pp _. sstep. apply regroup_w0. cbn. rewrite Pw. exact W0. }
  rewrite width1_pos in HR by lia. sstep.
  eapply swp_mono; [eapply (verify_mult_swp md a q b A (wires rho (limbs q)) B); eauto|].
  - apply ev_wires.
  - unfold in_word. rewrite Pm. eapply Forall_impl; [|exact HR]. cbv beta. lia.
  - rewrite Hp. cbn. congruence.
  - rewrite LQ. auto.
  - unfold mult_word. rewrite Na, Pm, Hp. cbn [n_limbs params_new]. exact HM.
  - cbv beta. fold w. intros _ (H1 & H2 & H3 & H4 & H5). split; auto.
    exists (value_of (2 ^ Z.of_nat w) (wires rho (limbs q))). lia.
Qed.

(** The word bounds of the two sides of a division identity. *)
Definition mod_word (a b m : bignat) (ql : nat) (rw : Z) (w : nat) : Z :=
  Z.max (product_word (length (limbs a)) (max_word (bparams a)) (length (limbs b)) (max_word (bparams b)))
        (product_word ql (2 ^ Z.of_nat w - 1) (length (limbs m)) (max_word (bparams m)) + rw).

(** Comparison of a product with a product plus a rest. *)
Lemma two_sides_swp md lhs rhs w a q m r L Q Mm R :
  ev rho (p_coeffs lhs) L -> Forall (fun d => 0 <= d <= a) L ->
  ev rho (p_coeffs rhs) (convs Q Mm) -> ev rho (limbs r) R ->
  ev rho (limbs q) Q -> ev rho (limbs m) Mm ->
  in_word q Q -> in_word m Mm -> in_word r R -> 0 <= max_word (bparams r) ->
  group_no_wrap (Z.max a (right_max_word q m r)) w ->
  swp md rho (equal_when_carried_regroup (from_poly lhs w a)
     (from_poly (poly_sum rhs (to_poly r)) w (right_max_word q m r))) (fun _ => (1 <= w)%nat /\
    value_of (2 ^ Z.of_nat w) L = value_of (2 ^ Z.of_nat w) Q * value_of (2 ^ Z.of_nat w) Mm + value_of (2 ^ Z.of_nat w) R).
Proof.
  intros HL BL HP HR HQ HM WQ WM WR R0 HN.
  assert (B1 : Forall (fun d => 0 <= d <= Z.of_nat (Nat.min (length Q) (length Mm)) * max_word (bparams q) * max_word (bparams m))
     (convs Q Mm)) by (apply conv_list_bound; auto).
  assert (C0 : 0 <= Z.of_nat (Nat.min (length Q) (length Mm)) * max_word (bparams q) * max_word (bparams m)).
  { pose proof (conv_bound Q Mm 0 _ _ WQ WM). lia. }
  eapply swp_mono; [eapply (regroup_swp rho one md (from_poly lhs w a)
     (from_poly (poly_sum rhs (to_poly r)) w (right_max_word q m r)) L (rsum (convs Q Mm) R))|];
    rewrite ?from_poly_bparams; cbn [limbs max_word limb_width from_poly]; auto.
  - apply (poly_sum_ev rho rhs (to_poly r)); auto.
  - unfold right_max_word. rewrite (ev_length _ _ _ HQ), (ev_length _ _ _ HM). apply rsum_bound; auto.
  - cbv beta. rewrite rsum_value, convs_value. tauto.
Qed.

Lemma assert_product_mod_swp md a b m r A B Mm R :
  let w := limb_width (bparams a) in
  let B' := 2 ^ Z.of_nat w in
  ev rho (limbs a) A -> ev rho (limbs b) B -> ev rho (limbs m) Mm -> ev rho (limbs r) R ->
  in_word a A -> in_word b B -> in_word m Mm -> in_word r R -> 0 <= max_word (bparams r) ->
  Z.of_nat (length A + length B + length Mm - 1) < modulus ->
  group_no_wrap (mod_word a b m (length A + length B) (max_word (bparams r)) w) w ->
  swp md rho (assert_product_mod a b m r) (fun q => 
    limb_width (bparams b) = w /\ limb_width (bparams m) = w /\ limb_width (bparams r) = w /\
    limb_width (bparams q) = w /\ length (limbs q) = (length A + length B)%nat /\ range_wires w q /\
    value_of B' A * value_of B' B = int_of rho q * value_of B' Mm + value_of B' R).
Proof.
  intros w B' Ha Hb Hm Hr WA WB WM WR R0 Hn HN. unfold assert_product_mod.
  do 2 sstep. intros w1 Hw1. unfold width_agreement in Hw1.
  destruct (Nat.eqb_spec (limb_width (bparams a)) (limb_width (bparams b))) as [W1|]; [|discriminate].
  do 2 sstep. intros w2 Hw2. unfold width_agreement in Hw2.
  destruct (Nat.eqb_spec (limb_width (bparams a)) (limb_width (bparams m))) as [W2|]; [|discriminate].
  do 2 sstep. intros w3 Hw3. unfold width_agreement in Hw3.
  destruct (Nat.eqb_spec (limb_width (bparams a)) (limb_width (bparams r))) as [W3|]; [|discriminate].
  clear w1 Hw1 w2 Hw2 w3 Hw3. fold w. do 2 sstep. apply alloc_from_nat_swp. intros q Hp Lp.
  rewrite (ev_length _ _ _ Ha), (ev_length _ _ _ Hb) in *.
  assert (Pw : limb_width (bparams q) = w /\ max_word (bparams q) = 2 ^ Z.of_nat w - 1).
  { rewrite Hp. split; auto. change (max_word (params_new w (length A + length B))) with (int_with_n_ones w). apply int_with_n_ones_spec. }
  destruct Pw as [Pw Pm].
  do 2 sstep. apply wf_range. intros HR. rewrite Pw in HR.
  set (Q := wires rho (limbs q)) in *.
  assert (HQ : ev rho (limbs q) Q) by apply ev_wires.
  assert (LQ : length Q = (length A + length B)%nat) by (unfold Q, wires; now rewrite map_length).
  do 2 sstep. eapply swp_mono; [apply (alloc_product_swp rho md (to_poly a) (to_poly b) A B); auto; lia|].
  intros lhs Hlhs. cbv beta in Hlhs. fold (convs A B) in Hlhs.
  do 2 sstep. eapply swp_mono; [apply (alloc_product_swp rho md (to_poly q) (to_poly m) Q Mm); auto; lia|].
  intros rp Hrp. cbv beta in Hrp. fold (convs Q Mm) in Hrp. do 2 sstep.
  destruct (Nat.eq_dec w 0) as [W0|W0]; [apply regroup_w0; exact W0|].
  rewrite width1_pos in HR by lia.
  eapply swp_mono; [eapply (two_sides_swp md lhs rp w (left_max_word a b) q m r (convs A B) Q Mm R); auto|].
  - unfold left_max_word. rewrite (ev_length _ _ _ Ha), (ev_length _ _ _ Hb). apply conv_list_bound; auto.
  - unfold in_word. rewrite Pm. eapply Forall_impl; [|exact HR]. cbv beta. lia.
  - unfold mod_word, product_word in HN. unfold left_max_word, right_max_word.
    rewrite Pm, (ev_length _ _ _ HQ), LQ. exact HN.
  - cbv beta. intros _ [_ HV]. sstep. rewrite convs_value in HV. unfold int_of. rewrite Pw. fold Q B'.
    repeat (split; [solve [auto; congruence]|]). exact HV.
Qed.

Lemma mult_mod_swp md a b m A B Mm :
  let w := limb_width (bparams a) in
  let B' := 2 ^ Z.of_nat w in
  ev rho (limbs a) A -> ev rho (limbs b) B -> ev rho (limbs m) Mm ->
  in_word a A -> in_word b B -> in_word m Mm ->
  Z.of_nat (length A + length B - 1) < modulus ->
  swp md rho (mult_mod a b m) (fun qr => let '(q, r) := qr in
    Z.of_nat (length (limbs q) + length Mm - 1) < modulus ->
    group_no_wrap (mod_word a b m (length (limbs q)) (2 ^ Z.of_nat w - 1) w) w ->
    limb_width (bparams b) = w /\ limb_width (bparams q) = w /\ limb_width (bparams r) = w /\
    length (limbs r) = length Mm /\ range_wires w q /\ range_wires w r /\
    value_of B' A * value_of B' B = int_of rho q * value_of B' Mm + int_of rho r).
Proof.
  intros w B' Ha Hb Hm WA WB WM Hn. unfold mult_mod.
  do 2 sstep. intros w1 Hw1. unfold width_agreement in Hw1.
  destruct (Nat.eqb_spec (limb_width (bparams a)) (limb_width (bparams b))) as [W1|]; [|discriminate].
  injection Hw1 as <-. fold w. do 2 sstep. intros na _. do 2 sstep. intros nb _.
  do 2 sstep. intros ql Hql. unfold quotient_limbs in Hql.
  destruct (Nat.eqb_spec w 0) as [|W0]; [discriminate|]. clear Hql.
  do 2 sstep. apply alloc_from_nat_swp. intros q Hq Lq.
  assert (Pq : limb_width (bparams q) = w /\ max_word (bparams q) = 2 ^ Z.of_nat w - 1).
  { rewrite Hq. split; auto. change (max_word (params_new w ql)) with (int_with_n_ones w). apply int_with_n_ones_spec. }
  destruct Pq as [Pw Pm].
  do 2 sstep. apply wf_range. intros HR. rewrite Pw, width1_pos in HR by lia.
  do 2 sstep. apply alloc_from_nat_swp. intros r Hr Lr. rewrite (ev_length _ _ _ Hm) in Lr.
  assert (Pr : limb_width (bparams r) = w /\ max_word (bparams r) = 2 ^ Z.of_nat w - 1).
  { rewrite Hr. split; auto. change (max_word (params_new w (length (limbs m)))) with (int_with_n_ones w). apply int_with_n_ones_spec. }
  destruct Pr as [Prw Prm].
  do 2 sstep. apply wf_range. intros HRr. rewrite Prw, width1_pos in HRr by lia.
  set (Q := wires rho (limbs q)) in *. set (R := wires rho (limbs r)) in *.
  assert (HQ : ev rho (limbs q) Q) by apply ev_wires.
  assert (HRe : ev rho (limbs r) R) by apply ev_wires.
  assert (LQ : length (limbs q) = length Q) by (unfold Q, wires; now rewrite map_length).
  do 2 sstep. eapply swp_mono; [apply (alloc_product_swp rho md (to_poly a) (to_poly b) A B); auto; lia|].
  intros lhs Hlhs. cbv beta in Hlhs. fold (convs A B) in Hlhs.
  do 2 sstep.
  eapply swp_mono; [apply (swp_imp md rho _ (Z.of_nat (length Q + length Mm - 1) < modulus));
    intros HP; exact (alloc_product_swp rho md (to_poly q) (to_poly m) Q Mm HQ Hm HP)|].
  intros rp Hrp. cbv beta in Hrp. fold (convs Q Mm) in Hrp. do 2 sstep.
  eapply swp_mono.
  { apply (swp_imp md rho _ (Z.of_nat (length Q + length Mm - 1) < modulus /\
      group_no_wrap (mod_word a b m (length Q) (2 ^ Z.of_nat w - 1) w) w)).
    intros [HP HN].
    eapply (two_sides_swp md lhs rp w (left_max_word a b) q m r (convs A B) Q Mm R); auto.
    - unfold left_max_word. rewrite (ev_length _ _ _ Ha), (ev_length _ _ _ Hb). apply conv_list_bound; auto.
    - unfold in_word. rewrite Pm. eapply Forall_impl; [|exact HR]. cbv beta. lia.
    - unfold in_word. rewrite Prm. eapply Forall_impl; [|exact HRr]. cbv beta. lia.
    - rewrite Prm. pose proof (pow2_pos w). lia.
    - unfold mod_word, product_word in HN. unfold left_max_word, right_max_word.
      rewrite Pm, Prm, LQ. exact HN. }
  cbv beta. intros _ HV. sstep. rewrite LQ. intros HP HN. destruct (HV (conj HP HN)) as [_ HV'].
  rewrite convs_value in HV'. unfold int_of. rewrite Pw, Prw. fold Q R B'.
  repeat (split; [solve [auto; congruence]|]). exact HV'.
Qed.

Lemma red_mod_swp md a m A Mm :
  let w := limb_width (bparams a) in
  let B' := 2 ^ Z.of_nat w in
  ev rho (limbs a) A -> ev rho (limbs m) Mm -> in_word a A -> in_word m Mm ->
  (forall ql, quotient_limbs (w * (n_limbs (bparams a) - 1) + bigint_bits (max_word (bparams a))) (min_bits (bparams m)) w = Ok ql ->
     Z.of_nat (ql + length Mm - 1) < modulus /\
     group_no_wrap (Z.max (max_word (bparams a))
       (product_word ql (2 ^ Z.of_nat w - 1) (length Mm) (max_word (bparams m)) + (2 ^ Z.of_nat w - 1))) w) ->
  swp md rho (red_mod a m) (fun r =>
    limb_width (bparams m) = w /\ limb_width (bparams r) = w /\
    length (limbs r) = length Mm /\ range_wires w r /\
    exists q, 0 <= q /\ value_of B' A = q * value_of B' Mm + int_of rho r).
Proof.
  intros w B' Ha Hm WA WM HN. unfold red_mod.
  do 2 sstep. intros w1 Hw1. unfold width_agreement in Hw1.
  destruct (Nat.eqb_spec (limb_width (bparams a)) (limb_width (bparams m))) as [W1|]; [|discriminate].
  injection Hw1 as <-. fold w. do 2 sstep. intros na Hna. unfold n_bits in Hna.
  destruct (_ <? _)%nat; [|discriminate]. injection Hna as <-. fold w.
  do 2 sstep. intros ql Hql. specialize (HN _ Hql). destruct HN as [HP HN]. unfold quotient_limbs in Hql.
  destruct (Nat.eqb_spec w 0) as [|W0]; [discriminate|]. clear Hql.
  do 2 sstep. apply alloc_from_nat_swp. intros q Hq Lq.
  assert (Pq : limb_width (bparams q) = w /\ max_word (bparams q) = 2 ^ Z.of_nat w - 1).
  { rewrite Hq. split; auto. change (max_word (params_new w ql)) with (int_with_n_ones w). apply int_with_n_ones_spec. }
  destruct Pq as [Pw Pm].
  do 2 sstep. apply wf_range. intros HR. rewrite Pw, width1_pos in HR by lia.
  do 2 sstep. apply alloc_from_nat_swp. intros r Hr Lr. rewrite (ev_length _ _ _ Hm) in Lr.
  assert (Pr : limb_width (bparams r) = w /\ max_word (bparams r) = 2 ^ Z.of_nat w - 1).
  { rewrite Hr. split; auto. change (max_word (params_new w (length (limbs m)))) with (int_with_n_ones w). apply int_with_n_ones_spec. }
  destruct Pr as [Prw Prm].
  do 2 sstep. apply wf_range. intros HRr. rewrite Prw, width1_pos in HRr by lia.
  set (Q := wires rho (limbs q)) in *. set (R := wires rho (limbs r)) in *.
  assert (HQ : ev rho (limbs q) Q) by apply ev_wires.
  assert (HRe : ev rho (limbs r) R) by apply ev_wires.
  assert (LQ : length Q = ql) by (unfold Q, wires; now rewrite map_length).
  do 2 sstep. eapply swp_mono; [apply (alloc_product_swp rho md (to_poly q) (to_poly m) Q Mm); auto; lia|].
  intros rp Hrp. cbv beta in Hrp. fold (convs Q Mm) in Hrp. do 2 sstep.
  assert (WQ : in_word q Q).
  { unfold in_word. rewrite Pm. eapply Forall_impl; [|exact HR]. cbv beta. lia. }
  assert (WR : in_word r R).
  { unfold in_word. rewrite Prm. eapply Forall_impl; [|exact HRr]. cbv beta. lia. }
  assert (B1 : Forall (fun d => 0 <= d <= Z.of_nat (Nat.min (length Q) (length Mm)) * max_word (bparams q) * max_word (bparams m))
     (convs Q Mm)) by (apply conv_list_bound; auto).
  assert (C0 : 0 <= Z.of_nat (Nat.min (length Q) (length Mm)) * max_word (bparams q) * max_word (bparams m)).
  { pose proof (conv_bound Q Mm 0 _ _ WQ WM). lia. }
  eapply swp_mono; [eapply (regroup_swp rho one md a
     (from_poly (poly_sum rp (to_poly r)) w (right_max_word q m r)) A (rsum (convs Q Mm) R))|];
    rewrite ?from_poly_bparams; cbn [limbs max_word limb_width from_poly]; auto.
  - apply (poly_sum_ev rho rp (to_poly r)); auto.
  - unfold right_max_word. rewrite (ev_length _ _ _ HQ), (ev_length _ _ _ Hm). apply rsum_bound; auto.
    rewrite Prm. pose proof (pow2_pos w). lia.
  - unfold right_max_word. rewrite (ev_length _ _ _ HQ), (ev_length _ _ _ Hm), LQ, Pm, Prm. exact HN.
  - cbv beta. rewrite rsum_value, convs_value. fold w. fold B'. intros _ (_ & _ & _ & HV & _). sstep.
    repeat (split; [solve [auto; congruence]|]). exists (value_of B' Q). split.
    + apply value_of_nonneg; [unfold B'; pose proof (pow2_pos w); lia|]. eapply Forall_impl; [|exact HR]. cbv beta. lia.
    + unfold int_of. rewrite Prw. exact HV.
Qed.
End Rho.
End Mult.
