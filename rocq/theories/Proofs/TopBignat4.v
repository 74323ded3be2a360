(** Corollaries for full limbs and for the field of the example, and concrete counterexamples. *)
From Coq Require Import ZArith Bool List Lia ZifyBool ZifyNat.
From Verif.Model Require Import Base CS Bellpepper Util Poly Bignat Gadget Fields.
From Verif.Spec Require Import Spec.
From Verif.Proofs Require Import Arith Wp Prime PureOps TopBignat1 TopBignat2 TopBignat3 Room PrimeFields.
Import ListNotations.
Local Open Scope Z_scope.

Section Top.
Context {E : Env} {W : Wf E}.

(** ** Full limbs: the conditions on the field become a bound on the number of limbs *)
Lemma top_room_product w n m : let B := 2 ^ Z.of_nat w in
  let M := Z.max (product_word n (B - 1) m (B - 1)) (B - 1) in
  (1 <= w)%nat -> (1 <= n)%nat -> (1 <= m)%nat ->
  4 * Z.of_nat (Nat.min n m) < B -> 2 * M <= 2 ^ Z.of_nat CAPACITY -> exact_carries M w ->
  group_no_wrap M w /\ group_room M w.
Proof.
  intros B M Hw Hn Hm H4 Hc Hx. pose proof (word_mult w n m Hw Hn Hm) as HM. cbv zeta in HM. fold B M in HM.
  rewrite HM in *. apply room_product; auto; lia.
Qed.
Lemma top_room_mod w n m q l : let B := 2 ^ Z.of_nat w in
  let M := Z.max (product_word n (B - 1) m (B - 1)) (product_word q (B - 1) l (B - 1) + (B - 1)) in
  (1 <= w)%nat -> (1 <= n)%nat -> (1 <= m)%nat -> (1 <= q)%nat -> (1 <= l)%nat ->
  4 * Z.of_nat (Nat.max (Nat.min n m) (Nat.min q l)) < B -> 2 * M <= 2 ^ Z.of_nat CAPACITY -> exact_carries M w ->
  group_no_wrap M w /\ group_room M w.
Proof.
  intros B M Hw Hn Hm Hq Hl H4 Hc Hx. destruct (word_mod w n m q l Hw Hn Hm Hq Hl) as (k & e & HM & He & Hk). fold B M in HM.
  rewrite HM in *. apply room_product; auto; lia.
Qed.
Lemma top_room_red w q l : let B := 2 ^ Z.of_nat w in
  let M := Z.max (B - 1) (product_word q (B - 1) l (B - 1) + (B - 1)) in
  (1 <= w)%nat -> (1 <= q)%nat -> (1 <= l)%nat ->
  4 * Z.of_nat (Nat.min q l) < B -> 2 * M <= 2 ^ Z.of_nat CAPACITY -> exact_carries M w ->
  group_no_wrap M w /\ group_room M w.
Proof.
  intros B M Hw Hq Hl H4 Hc Hx. pose proof (word_red w q l Hw Hq Hl) as HM. cbv zeta in HM. fold B M in HM.
  rewrite HM in *. apply room_product; auto; lia.
Qed.
Lemma top_room_equal w : let M := 2 ^ Z.of_nat w - 1 in
  (2 <= w)%nat -> 2 * M <= 2 ^ Z.of_nat CAPACITY -> exact_carries M w -> group_no_wrap M w /\ group_room M w.
Proof.
  intros M Hw Hc Hx. replace M with ((2 ^ Z.of_nat w - 1) * 1) in * by (unfold M; ring). apply room_linear; auto.
Qed.
Lemma top_room_sub w : let M := (2 ^ Z.of_nat w - 1) + (2 ^ Z.of_nat w - 1) in
  (2 <= w)%nat -> 2 * M <= 2 ^ Z.of_nat CAPACITY -> exact_carries M w -> group_no_wrap M w /\ group_room M w.
Proof.
  intros M Hw Hc Hx. replace M with ((2 ^ Z.of_nat w - 1) * 2) in * by (unfold M; ring). apply room_linear; auto.
Qed.

End Top.

(** ** The Pallas scalar field with 64-bit limbs *)
Lemma exact_carries_pallas ck M w : @exact_carries (pallas_env ck) M w.
Proof. split; reflexivity. Qed.
Lemma pallas_capacity ck : @CAPACITY (pallas_env ck) = 254%nat.
Proof. unfold CAPACITY, NUM_BITS. change (Z.log2 (@modulus (pallas_env ck))) with 254. reflexivity. Qed.
Lemma pallas_num_bits ck : @NUM_BITS (pallas_env ck) = 255%nat.
Proof. unfold NUM_BITS. change (Z.log2 (@modulus (pallas_env ck))) with 254. reflexivity. Qed.

(** Up to 2^60 full limbs of 64 bits the product is exact. *)
Lemma top_mult_pallas ck wit a b s p s' rho : let E := pallas_env ck in
  run wit (mult a b) s = (Ok p, s') -> sat rho s' -> well_shaped a -> well_shaped b ->
  limb_width (bparams a) = 64%nat -> max_word (bparams a) = 2 ^ 64 - 1 -> max_word (bparams b) = 2 ^ 64 - 1 ->
  Forall (fun v => 0 <= v < 2 ^ 64) (wires rho (limbs a)) -> Forall (fun v => 0 <= v < 2 ^ 64) (wires rho (limbs b)) ->
  limbs a <> [] -> limbs b <> [] ->
  Z.of_nat (length (limbs a)) <= 2 ^ 60 -> Z.of_nat (length (limbs b)) <= 2 ^ 60 ->
  int_of rho p = int_of rho a * int_of rho b /\
  Forall (fun v => 0 <= v < 2 ^ 64) (wires rho (limbs p)) /\
  length (limbs p) = (length (limbs a) + length (limbs b))%nat.
Proof.
  intros E Hr Hs Sa Sb Hw Ma Mb Ba Bb La Lb Ua Ub.
  apply nonempty_length in La, Lb.
  assert (Hm : Z.of_nat (length (limbs a) + length (limbs b)) <= modulus).
  { change modulus with pallas_scalar_modulus. unfold pallas_scalar_modulus. lia. }
  destruct (top_room_product (E := E) (W := wf_pallas ck) 64 (length (limbs a)) (length (limbs b))) as [Hn _]; auto.
  - lia.
  - change (2 ^ Z.of_nat 64) with (2 ^ 64). lia.
  - unfold E. rewrite pallas_capacity. unfold product_word. change (2 ^ Z.of_nat 64) with (2 ^ 64).
    set (k := Z.of_nat (Nat.min _ _)). assert (0 <= k <= 2 ^ 60) by lia.
    assert (k * (2 ^ 64 - 1) * (2 ^ 64 - 1) <= 2 ^ 60 * (2 ^ 64 - 1) * (2 ^ 64 - 1)).
    { rewrite <- !Z.mul_assoc. apply Z.mul_le_mono_nonneg_r; lia. }
    change (Z.of_nat 254) with 254. lia.
  - apply exact_carries_pallas.
  - pose proof (top_mult_sound (E := E) (W := wf_pallas ck) wit a b s p s' rho Hr Hs Sa Sb) as H. cbv zeta in H.
    rewrite Hw, Ma, Mb in H. destruct H as (H1 & H2 & H3 & _); auto.
    + eapply Forall_impl; [|exact Ba]. cbv beta. rewrite Ma. lia.
    + eapply Forall_impl; [|exact Bb]. cbv beta. rewrite Mb. lia.
Qed.

(** One limb times two limbs: satisfiable exactly when the product fits two limbs. *)
Lemma top_mult_1x2_pallas ck wit a b x y z s p s' rho0 : let E := pallas_env ck in
  good_for rho0 s -> bignat_for rho0 s a [x] -> bignat_for rho0 s b [y; z] ->
  limb_width (bparams a) = 64%nat -> max_word (bparams a) = 2 ^ 64 - 1 -> max_word (bparams b) = 2 ^ 64 - 1 ->
  run wit (mult a b) s = (Ok p, s') ->
  ((exists rho, same_on s rho rho0 /\ sat rho s') <-> x * (y + 2 ^ 64 * z) < 2 ^ 128).
Proof.
  intros E G Ha Hb Hw Ma Mb Hr.
  pose proof (top_mult_exact (E := E) (W := wf_pallas ck) wit a b [x] [y; z] s p s' rho0 G Ha Hb Hr) as H. cbv zeta in H.
  rewrite Hw, Ma, Mb in H. cbn [length Nat.add Nat.sub] in H.
  change (2 ^ Z.of_nat 64) with (2 ^ 64) in H.
  set (M := Z.max (product_word 1 (2 ^ 64 - 1) 2 (2 ^ 64 - 1)) (2 ^ 64 - 1)) in H.
  destruct (top_room_product (E := E) (W := wf_pallas ck) 64 1 2) as [Hn Hro]; try lia.
  { unfold E. rewrite pallas_capacity. vm_compute. discriminate. }
  { apply exact_carries_pallas. }
  change (group_no_wrap M 64) in Hn. change (group_room M 64) in Hro.
  assert (Hg : group_size M 64 = 2%nat).
  { unfold group_size, E. rewrite pallas_capacity. vm_compute. reflexivity. }
  assert (HN : (64 < @NUM_BITS E)%nat) by (unfold E; rewrite pallas_num_bits; lia).
  assert (HM : Z.of_nat 3 <= @modulus E) by (unfold modulus, E, pallas_env, pallas_scalar_modulus; lia).
  rewrite Hg in H. specialize (H ltac:(discriminate) ltac:(discriminate) ltac:(lia) HN HM Hn Hro). rewrite H.
  change (2 ^ Z.of_nat (64 * (n_groups 2 2 * 2))) with (2 ^ 128). change (2 ^ Z.of_nat (64 * 3)) with (2 ^ 192).
  cbn [value_of]. rewrite !Z.mul_0_r, !Z.add_0_r. split; [tauto|]. intros K; split; [exact K|]. eapply Z.lt_trans; [exact K|]. lia.
Qed.

(** ** The difference returned by [sub] is not range-checked *)
Lemma top_sub_wraps ck : let E := pallas_env ck in exists s a b d s' rho,
  run false (let! a := alloc_from_nat (Ok 0) 64 1 in let! b := alloc_from_nat (Ok 1) 64 1 in Ret (a, b)) st_init = (Ok (a, b), s) /\
  run false (sub a b) s = (Ok d, s') /\ sat rho s' /\
  bounded rho a /\ bounded rho b /\
  int_of rho a = 0 /\ int_of rho b = 1 /\ int_of rho d = pallas_scalar_modulus - 1 /\ ~ bounded rho d.
Proof.
  intros E. do 5 eexists. exists (asg (mkst [1] [0; 1; pallas_scalar_modulus - 1; 1] [] [] [])).
  split; [vm_compute; reflexivity|]. split; [vm_compute; reflexivity|]. split; [apply satb_sat; destruct ck; vm_compute; reflexivity|].
  split; [repeat constructor; vm_compute; discriminate|]. split; [repeat constructor; vm_compute; discriminate|].
  split; [vm_compute; reflexivity|]. split; [vm_compute; reflexivity|]. split; [vm_compute; reflexivity|].
  intros H. apply Forall_inv in H. vm_compute in H. apply H. reflexivity.
Qed.

(** ** Grouping does not check that the words stay below the modulus *)
Lemma top_regroup_wraps : let E := small_env 251 in exists s a b s' rho,
  run false (let! a := alloc_from_limbs (Ok []) (Some 4) 1 10 in let! b := alloc_from_limbs (Ok []) (Some 4) 1 10 in Ret (a, b)) st_init = (Ok (a, b), s) /\
  run false (equal_when_carried_regroup a b) s = (Ok tt, s') /\ sat rho s' /\
  bounded rho a /\ bounded rho b /\ int_of rho a = 0 /\ int_of rho b = 251.
Proof.
  intros E. do 4 eexists.
  exists (asg (mkst [1] ([0;0;0;0;0;0;0;0;0;0] ++ [3;4;4;4;4;4;0;0;0;0] ++ [7;1;1;3]) [] [] [])).
  split; [vm_compute; reflexivity|]. split; [vm_compute; reflexivity|]. split; [apply satb_sat; vm_compute; reflexivity|].
  split; [repeat constructor; vm_compute; discriminate|]. split; [repeat constructor; vm_compute; discriminate|].
  split; vm_compute; reflexivity.
Qed.
