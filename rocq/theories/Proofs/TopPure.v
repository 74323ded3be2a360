(** Final forms of the lemmas about the operations that only build linear combinations. *)
From Coq Require Import ZArith Znumtheory Bool List Lia Setoid Morphisms ZifyBool ZifyNat.
From Verif.Model Require Import Base CS Bellpepper Util Poly Bignat.
From Verif.Spec Require Import Spec.
From Verif.Proofs Require Import Field Arith Convert Limbs Wp Lc BitNum PolyP BoolP BignatEq BignatAlloc Group Carry Regroup Mult MultC TopBits TopPoly TopBignat1 PureOps.
Import ListNotations.
Local Open Scope Z_scope.

Section Top.
Context {E : Env} {W : Wf E}.

Lemma CAPACITY_lt : 2 ^ Z.of_nat CAPACITY < modulus.
Proof.
  pose proof CAPACITY_pow as H. destruct (Z.eq_dec (2 ^ Z.of_nat CAPACITY) modulus) as [He|]; [|lia].
  exfalso. pose proof wf_prime as HP. pose proof wf_two as H2.
  assert (Hc : (1 <= CAPACITY)%nat).
  { destruct CAPACITY; [|lia]. change (2 ^ Z.of_nat 0) with 1 in He. lia. }
  assert (D : (2 | modulus)).
  { rewrite <- He. replace CAPACITY with (S (CAPACITY - 1)) by lia. rewrite pow2_S. exists (2 ^ Z.of_nat (CAPACITY - 1)). ring. }
  apply (prime_divisors _ HP) in D. lia.
Qed.

Lemma top_add_error a b : limb_width (bparams a) <> limb_width (bparams b) -> add a b = Err Unsatisfiable.
Proof. intros H. unfold add, width_agreement. rewrite (proj2 (Nat.eqb_neq _ _)) by auto. reflexivity. Qed.

Lemma top_add a b : well_shaped a -> well_shaped b -> limb_width (bparams a) = limb_width (bparams b) ->
  exists c, add a b = Ok c /\ well_shaped c /\ max_word (bparams c) = max_word (bparams a) + max_word (bparams b) /\
    limb_width (bparams c) = limb_width (bparams a) /\
    (forall rho, bounded rho a -> bounded rho b -> 0 <= max_word (bparams a) -> 0 <= max_word (bparams b) ->
       max_word (bparams a) + max_word (bparams b) < modulus ->
       bounded rho c /\ int_of rho c = int_of rho a + int_of rho b) /\
    (forall s xs ys, good s -> bignat_at s a xs -> bignat_at s b ys ->
       0 <= max_word (bparams a) -> 0 <= max_word (bparams b) ->
       max_word (bparams a) + max_word (bparams b) < modulus ->
       exists zs, bignat_at s c zs /\ length zs = Nat.max (length xs) (length ys) /\
         (forall i, nth i zs 0 = nth i xs 0 + nth i ys 0) /\
         value_of (2 ^ Z.of_nat (limb_width (bparams c))) zs =
           value_of (2 ^ Z.of_nat (limb_width (bparams a))) xs + value_of (2 ^ Z.of_nat (limb_width (bparams b))) ys).
Proof.
  intros Sa Sb HW. destruct (add_ok a b Sa Sb HW) as (c & H1 & H2 & H3 & H4 & H5 & H6).
  exists c. split; auto. split; auto. rewrite H2. split; auto. split; auto. split.
  - intros rho Ba Bb Pa Pb HM. apply bounded_in_word in Ba, Bb.
    pose proof (rsum_word _ _ _ _ Ba Bb Pa Pb) as HS.
    assert (HC : wires rho (limbs c) = rsum (wires rho (limbs a)) (wires rho (limbs b))).
    { apply ev_canon; [apply H4; apply ev_wires|]. eapply bounded_canon; eauto. }
    split.
    + apply bounded_in_word. unfold in_word. rewrite HC, H2. exact HS.
    + unfold int_of. rewrite HC, rsum_value, H2. cbn [add_params limb_width]. now rewrite HW.
  - intros s xs ys G Ha Hb Pa Pb HM.
    pose proof (rsum_word _ _ _ _ (bignat_at_word _ _ _ Ha) (bignat_at_word _ _ _ Hb) Pa Pb) as HS.
    pose proof (bounded_canon _ _ HM HS) as HC.
    exists (rsum xs ys). split; [|split; [apply rsum_length|split; [intros; apply rsum_nth|]]].
    + apply mk_bignat_at; auto.
      * intros rho Hag one. apply H4; eapply bignat_at_ev; eauto.
      * rewrite (H5 xs ys), map_fmk_canon; auto; [apply Ha|apply Hb].
      * rewrite H2. cbn [add_params limb_width]. rewrite rsum_value. apply H6; [apply Ha|rewrite HW; apply Hb].
      * rewrite H2, rsum_length. cbn [add_params n_limbs].
        destruct Ha as (_ & _ & _ & -> & _), Hb as (_ & _ & _ & -> & _). reflexivity.
      * unfold in_word. rewrite H2. exact HS.
    + rewrite rsum_value. cbn [add_params limb_width]. now rewrite HW.
Qed.

(** ** shift and scale *)
Lemma shift_spec b k : well_shaped b -> limbs b <> [] -> canon k -> 
  max_word (bparams b) + k <= 2 ^ Z.of_nat CAPACITY ->
  exists c, shift b k = Ok c /\ well_shaped c /\
    bparams c = mkParams (min_bits (bparams b)) (max_word (bparams b) + k) (limb_width (bparams b)) (n_limbs (bparams b)) /\
    value c = option_map (fun v => v + k) (value b) /\
    (forall rho x xs, rho ONE = 1 -> ev rho (limbs b) (x :: xs) -> ev rho (limbs c) (x + k :: xs)) /\
    (forall x xs, limb_values b = Some (x :: xs) -> limb_values c = Some (fmk (x + k) :: xs)).
Proof.
  intros [S1 S2] HN HK HM. unfold shift. destruct (limbs b) as [|l0 ls] eqn:El; [congruence|].
  rewrite (f_to_nat_canon k) by auto. rewrite Z.shiftl_1_l, (proj2 (Z.leb_le _ _)) by auto.
  destruct (limb_values b) as [[|v vs]|] eqn:Ev.
  - destruct S2; discriminate.
  - cbn [rbind]. eexists. split; [reflexivity|]. destruct S2 as [S2 S3]. split; [|split; [|split; [|split]]]; auto.
    + split; cbn [bparams n_limbs limbs limb_values]; auto. split; auto. inversion S3; subst. constructor; auto. apply fadd_canon.
    + intros rho x xs one He. inversion He; subst. constructor; auto. lcs. rewrite lc_eval_const by auto. now rewrite H2.
    + intros x xs H. injection H as <- <-. reflexivity.
  - cbn [rbind]. eexists. split; [reflexivity|]. split; [|split; [|split; [|split]]]; auto.
    + split; cbn [bparams n_limbs limbs limb_values]; auto.
    + intros rho x xs one He. inversion He; subst. constructor; auto. lcs. rewrite lc_eval_const by auto. now rewrite H2.
    + discriminate.
Qed.

Lemma top_shift b k : well_shaped b -> limbs b <> [] -> canon k -> 
  max_word (bparams b) + k <= 2 ^ Z.of_nat CAPACITY ->
  exists c, shift b k = Ok c /\ well_shaped c /\ max_word (bparams c) = max_word (bparams b) + k /\
    limb_width (bparams c) = limb_width (bparams b) /\
    (forall rho, rho ONE = 1 -> bounded rho b -> bounded rho c /\ int_of rho c = int_of rho b + k) /\
    (forall s x xs, good s -> bignat_at s b (x :: xs) -> bignat_at s c (x + k :: xs)).
Proof.
  intros HS HN HK HM. destruct (shift_spec b k HS HN HK HM) as (c & H1 & H2 & H3 & H4 & H5 & H6).
  exists c. split; auto. split; auto. rewrite H3. split; auto. split; auto. pose proof CAPACITY_lt as HP. split.
  - intros rho one HB. apply bounded_in_word in HB. pose proof (ev_wires rho (limbs b)) as He.
    destruct (limbs b) as [|l0 ls] eqn:El; [congruence|]. cbn [wires map] in He. specialize (H5 rho _ _ one He).
    unfold in_word in HB. cbn [wires map] in HB.
    assert (HW : Forall (fun v => 0 <= v <= max_word (bparams b) + k) (feval rho l0 + k :: map (feval rho) ls)).
    { inversion HB as [|? ? B1 B2]; subst. destruct HK. constructor; [lia|]. eapply Forall_impl; [|exact B2]. cbv beta; lia. }
    assert (HC : wires rho (limbs c) = feval rho l0 + k :: map (feval rho) ls).
    { apply ev_canon; auto. eapply bounded_canon; [|exact HW]. lia. }
    split.
    + apply bounded_in_word. unfold in_word. rewrite HC, H3. exact HW.
    + unfold int_of. rewrite HC, H3, El. cbn [limb_width wires map value_of]. ring.
  - intros s x xs G Hb. pose proof (bignat_at_word _ _ _ Hb) as HB. 
    assert (HW : Forall (fun v => 0 <= v <= max_word (bparams b) + k) (x + k :: xs)).
    { inversion HB as [|? ? B1 B2]; subst. destruct HK. constructor; [lia|]. eapply Forall_impl; [|exact B2]. cbv beta; lia. }
    assert (HC : Forall canon (x + k :: xs)) by (eapply bounded_canon; [|exact HW]; lia).
    apply mk_bignat_at; auto.
    + intros rho Ha one. apply H5; auto. eapply bignat_at_ev; eauto.
    + rewrite (H6 x xs) by apply Hb. inversion HC; subst. now rewrite fmk_id.
    + rewrite H4, H3. destruct Hb as (_ & _ & -> & _). cbn [limb_width option_map value_of]. f_equal. ring.
    + rewrite H3. destruct Hb as (_ & _ & _ & Hn & _). exact Hn.
    + unfold in_word. rewrite H3. exact HW.
Qed.
Lemma top_shift_panic b k : canon k ->
  limbs b = [] \/ 2 ^ Z.of_nat CAPACITY < max_word (bparams b) + k -> shift b k = Panic.
Proof.
  intros HK H. unfold shift. destruct (limbs b); auto. destruct H as [H|H]; [discriminate|].
  rewrite (f_to_nat_canon k) by auto. rewrite Z.shiftl_1_l, (proj2 (Z.leb_gt _ _)) by auto.
  destruct (limb_values b) as [[|]|]; reflexivity.
Qed.

Lemma top_scale b k : well_shaped b -> canon k -> 0 <= max_word (bparams b) ->
  max_word (bparams b) * k <= 2 ^ Z.of_nat CAPACITY ->
  exists c, scale b k = Ok c /\ well_shaped c /\ max_word (bparams c) = max_word (bparams b) * k /\
    limb_width (bparams c) = limb_width (bparams b) /\
    (forall rho, bounded rho b -> bounded rho c /\ int_of rho c = int_of rho b * k) /\
    (forall s xs, good s -> bignat_at s b xs -> bignat_at s c (map (fun x => x * k) xs)).
Proof.
  intros [S1 S2] HK HP HM. unfold scale. rewrite (f_to_nat_canon k) by auto.
  rewrite Z.shiftl_1_l, (proj2 (Z.leb_le _ _)) by auto. pose proof CAPACITY_lt as HL.
  assert (HWd : forall xs, Forall (fun v => 0 <= v <= max_word (bparams b)) xs ->
     Forall (fun v => 0 <= v <= max_word (bparams b) * k) (map (fun x => x * k) xs)).
  { intros xs H. apply Forall_map. eapply Forall_impl; [|exact H]. cbv beta. destruct HK. intros a Ha. nia. }
  assert (HV : forall B xs, value_of B (map (fun x => x * k) xs) = value_of B xs * k).
  { intros B xs. induction xs as [|x xs IH]; [reflexivity|]. cbn [map value_of]. rewrite IH. ring. }
  assert (HE : forall rho xs, ev rho (limbs b) xs -> ev rho (map (lc_scale k) (limbs b)) (map (fun x => x * k) xs)).
  { intros rho xs H. clear S1 S2. induction H as [|l v ls vs Hlv _ IH]; cbn [map]; [constructor|]. constructor; [|exact IH].
    lcs. rewrite Hlv. apply eqp_ring. ring. }
  eexists. split; [reflexivity|]. cbn [bparams max_word limb_width]. split; [|split; [|split; [|split]]]; auto.
  - split; cbn [bparams n_limbs limbs limb_values]; rewrite map_length; auto.
    destruct (limb_values b); cbn [option_map]; auto. rewrite map_length. destruct S2; split; auto.
    apply Forall_map, Forall_forall. intros. apply fmul_canon.
  - intros rho HB. apply bounded_in_word in HB. specialize (HWd _ HB).
    set (c := mkBigNat _ _ _ _).
    assert (HC : wires rho (limbs c) = map (fun x => x * k) (wires rho (limbs b))).
    { apply ev_canon; [apply HE, ev_wires|]. eapply bounded_canon; [|exact HWd]. lia. }
    split.
    + apply bounded_in_word. unfold in_word. rewrite HC. exact HWd.
    + unfold int_of. rewrite HC, HV. reflexivity.
  - intros s xs G Hb. specialize (HWd _ (bignat_at_word _ _ _ Hb)).
    assert (HC : Forall canon (map (fun x => x * k) xs)) by (eapply bounded_canon; [|exact HWd]; lia).
    destruct Hb as (B1 & B2 & B3 & B4 & B5).
    apply mk_bignat_at; cbn [limbs limb_values value bparams limb_width n_limbs]; auto.
    + intros rho Ha one. apply HE. eapply carries_ev; eauto.
    + rewrite B1. cbn [option_map]. f_equal. rewrite <- (map_fmk_canon _ HC) at 1. rewrite map_map. reflexivity.
    + rewrite B3, HV. reflexivity.
    + rewrite map_length. auto.
Qed.
Lemma top_scale_panic b k : canon k -> 2 ^ Z.of_nat CAPACITY < max_word (bparams b) * k -> scale b k = Panic.
Proof.
  intros HK H. unfold scale. rewrite (f_to_nat_canon k) by auto. rewrite Z.shiftl_1_l, (proj2 (Z.leb_gt _ _)) by auto.
  reflexivity.
Qed.

(** ** concat *)
Lemma top_concat hi lo : well_shaped hi -> well_shaped lo -> limb_width (bparams hi) = limb_width (bparams lo) ->
  exists c, concat hi lo = Ok c /\ limbs c = limbs lo ++ limbs hi /\
    limb_width (bparams c) = limb_width (bparams hi) /\ n_limbs (bparams c) = length (limbs c) /\
    max_word (bparams c) = Z.max (max_word (bparams hi)) (max_word (bparams lo)) /\
    (forall rho, int_of rho c =
       int_of rho hi * 2 ^ Z.of_nat (limb_width (bparams lo) * length (limbs lo)) + int_of rho lo) /\
    (forall rho, bounded rho hi -> bounded rho lo -> bounded rho c) /\
    (forall s xs ys, good s -> bignat_at s hi xs -> bignat_at s lo ys -> bignat_at s c (ys ++ xs)) /\
    (forall v w, 0 <= v -> 0 <= w -> min_bits_ok hi v -> min_bits_ok lo w ->
       min_bits_ok c (v * 2 ^ Z.of_nat (limb_width (bparams lo) * length (limbs lo)) + w)).
Proof.
  intros [H1 H2] [L1 L2] HW. unfold concat, width_agreement. rewrite HW, Nat.eqb_refl. cbn [rbind].
  assert (HV : forall xs ys, value_of (2 ^ Z.of_nat (limb_width (bparams lo))) (ys ++ xs) =
     value_of (2 ^ Z.of_nat (limb_width (bparams hi))) xs * 2 ^ Z.of_nat (limb_width (bparams lo) * length ys) +
     value_of (2 ^ Z.of_nat (limb_width (bparams lo))) ys).
  { intros xs ys. rewrite value_of_app, HW, pow2_mul. ring. }
  eexists. split; [reflexivity|]. cbn [limbs bparams limb_width n_limbs max_word].
  split; auto. split; auto. split; [rewrite app_length; lia|]. split; auto. split; [|split; [|split]].
  - intros rho. unfold int_of. cbn [limbs bparams limb_width]. unfold wires. rewrite map_app, HV, map_length. reflexivity.
  - intros rho. unfold bounded. cbn [limbs bparams max_word]. unfold wires. rewrite map_app, Forall_app.
    intros A B. split; [eapply Forall_impl; [|exact B]|eapply Forall_impl; [|exact A]]; cbv beta; lia.
  - intros s xs ys G Hh Hl. pose proof (bignat_at_word _ _ _ Hh) as WH. pose proof (bignat_at_word _ _ _ Hl) as WL.
    pose proof (bignat_at_canon _ _ _ Hh) as CH. pose proof (bignat_at_canon _ _ _ Hl) as CL.
    destruct Hh as (A1 & A2 & A3 & A4 & A5), Hl as (B1 & B2 & B3 & B4 & B5).
    apply mk_bignat_at; cbn [limbs limb_values value bparams limb_width n_limbs]; auto.
    + intros rho Ha one. apply Forall2_app; eapply carries_ev; eauto.
    + rewrite A1, B1. reflexivity.
    + rewrite A3, B3, HV, Z.shiftl_mul_pow2 by lia. rewrite B4. reflexivity.
    + rewrite app_length. lia.
    + unfold in_word. cbn [bparams max_word]. rewrite Forall_app. unfold in_word in WH, WL.
      split; [eapply Forall_impl; [|exact WL]|eapply Forall_impl; [|exact WH]]; cbv beta; lia.
    + apply Forall_app. auto.
  - intros v w Hv Hw0 Mv Mw. unfold min_bits_ok in *. cbn [bparams min_bits].
    set (sh := (limb_width (bparams lo) * length (limbs lo))%nat). rewrite L1. fold sh.
    pose proof (pow2_pos sh) as HPs.
    destruct (Nat.ltb_spec 0 (min_bits (bparams hi))).
    + right. destruct Mv as [Mv|Mv]; [lia|].
      replace (min_bits (bparams hi) + sh - 1)%nat with ((min_bits (bparams hi) - 1) + sh)%nat by lia.
      rewrite pow2_add. nia.
    + destruct Mw as [Mw|Mw]; [left; auto|right; nia].
Qed.
Lemma top_concat_error hi lo : limb_width (bparams hi) <> limb_width (bparams lo) -> concat hi lo = Err Unsatisfiable.
Proof. intros H. unfold concat, width_agreement. rewrite (proj2 (Nat.eqb_neq _ _)) by auto. reflexivity. Qed.

(** ** truncate_limbs *)
Lemma removelast_firstn_len {A} (l : list A) : removelast l = firstn (length l - 1) l.
Proof. rewrite removelast_firstn_len. f_equal. lia. Qed.

Lemma pop_limbs_inv : forall k b c, pop_limbs k b = Ok c ->
  limbs c = firstn (length (limbs b) - k) (limbs b) /\ bparams c = bparams b.
Proof.
  induction k as [|k IH]; intros b c H.
  - injection H as <-. rewrite Nat.sub_0_r, firstn_all. auto.
  - cbn [pop_limbs] in H.
    assert (Hf : forall lv v, pop_limbs k (mkBigNat (removelast (limbs b)) lv v (bparams b)) = Ok c ->
      limbs c = firstn (length (limbs b) - S k) (limbs b) /\ bparams c = bparams b).
    { intros lv v Hp. apply IH in Hp. cbn [limbs bparams] in Hp. rewrite removelast_firstn_len in Hp.
      rewrite firstn_length, firstn_firstn in Hp. destruct Hp as [-> ->]. split; auto. f_equal. lia. }
    destruct (limb_values b) as [vs|]; [|now apply Hf in H].
    destruct (vec_pop vs) as [[lv vs']|]; cbn [unwrap rbind] in H; [|discriminate].
    destruct (value b) as [v|]; cbn [unwrap rbind] in H; [|discriminate]. now apply Hf in H.
Qed.

Lemma vec_pop_snoc {A} (l : list A) x : vec_pop (l ++ [x]) = Some (x, l).
Proof. unfold vec_pop. rewrite rev_app_distr. cbn [rev app]. now rewrite rev_involutive. Qed.

Lemma pop_limbs_ok : forall k b vs, (k <= length vs)%nat -> length (limbs b) = length vs -> Forall canon vs ->
  limb_values b = Some vs -> value b = Some (value_of (2 ^ Z.of_nat (limb_width (bparams b))) vs) ->
  exists c, pop_limbs k b = Ok c /\ limb_values c = Some (firstn (length vs - k) vs) /\
    value c = Some (value_of (2 ^ Z.of_nat (limb_width (bparams b))) (firstn (length vs - k) vs)).
Proof.
  induction k as [|k IH]; intros b vs Hk HL HC Hv Hval.
  - exists b. rewrite Nat.sub_0_r, firstn_all. auto.
  - cbn [pop_limbs]. rewrite Hv.
    destruct (exists_last (l := vs)) as (vs' & x & ->); [destruct vs; simpl in Hk; [lia|discriminate]|].
    rewrite vec_pop_snoc. cbn [unwrap rbind]. rewrite Hval. cbn [unwrap rbind].
    rewrite app_length in *. cbn [length] in *. apply Forall_app in HC. destruct HC as [HC Hx]. inversion Hx; subst.
    rewrite f_to_nat_canon by auto. rewrite removelast_firstn_len, firstn_length, HL.
    destruct (IH (mkBigNat (firstn (length vs' + 1 - 1) (limbs b)) (Some vs')
       (Some (value_of (2 ^ Z.of_nat (limb_width (bparams b))) vs')) (bparams b)) vs') as (c & H3 & H4 & H5);
      auto; [lia|cbn [limbs]; rewrite firstn_length; lia|].
    exists c. cbn [bparams] in H5.
    replace (firstn (length vs' + 1 - S k) (vs' ++ [x])) with (firstn (length vs' - k) vs').
    2:{ rewrite firstn_app. replace (length vs' + 1 - S k - length vs')%nat with 0%nat by lia.
        rewrite firstn_O, app_nil_r. f_equal. lia. }
    split; auto. rewrite <- H3. f_equal. f_equal. f_equal. rewrite value_of_app. cbn [value_of].
    rewrite Z.shiftl_mul_pow2 by lia.
    replace (Nat.min (length vs' + 1 - 1) (length vs' + 1)) with (length vs') by lia.
    rewrite (Nat.mul_comm (length vs')), pow2_mul. ring.
Qed.

Lemma Forall_firstn' {A} (P : A -> Prop) n l : Forall P l -> Forall P (firstn n l).
Proof. intros H. rewrite <- (firstn_skipn n l) in H. now apply Forall_app in H. Qed.
Lemma Forall2_firstn {A B} (R : A -> B -> Prop) n : forall l1 l2, Forall2 R l1 l2 -> Forall2 R (firstn n l1) (firstn n l2).
Proof. induction n; intros l1 l2 H; simpl; [constructor|]. destruct H; constructor; auto. Qed.

Lemma top_truncate_wires b n c : truncate_limbs b n = Ok c ->
  limbs c = firstn n (limbs b) /\ limb_width (bparams c) = limb_width (bparams b) /\
  max_word (bparams c) = max_word (bparams b) /\
  forall rho, int_of rho c = value_of (2 ^ Z.of_nat (limb_width (bparams b))) (firstn n (wires rho (limbs b))).
Proof.
  unfold truncate_limbs. intros H.
  assert (HF : limbs c = firstn n (limbs b) /\ limb_width (bparams c) = limb_width (bparams b) /\
    max_word (bparams c) = max_word (bparams b)).
  { destruct (Nat.ltb_spec n (length (limbs b))).
    - apply rbind_ok in H. destruct H as (b' & H1 & H2). injection H2 as <-. apply pop_limbs_inv in H1.
      destruct H1 as [H1 _]. cbn [with_params limbs bparams limb_width max_word]. rewrite H1. split; auto. f_equal. lia.
    - injection H as <-. rewrite firstn_all2 by auto. auto. }
  destruct HF as (H1 & H2 & H3). split; auto. split; auto. split; auto. intros rho. unfold int_of.
  rewrite H1, H2. unfold wires. now rewrite firstn_map.
Qed.
Lemma top_truncate_values s b vs n : good s -> bignat_at s b vs ->
  exists c, truncate_limbs b n = Ok c /\ bignat_at s c (firstn n vs).
Proof.
  intros G Hb. pose proof (bignat_at_word _ _ _ Hb) as HW. pose proof (bignat_at_canon _ _ _ Hb) as HC.
  pose proof Hb as (H1 & H2 & H3 & H4 & H5). pose proof (Forall2_length _ _ _ H2) as HL.
  unfold truncate_limbs. destruct (Nat.ltb_spec n (length (limbs b))).
  - destruct (pop_limbs_ok (length (limbs b) - n) b vs) as (c & P1 & P2 & P3); auto; [lia|].
    rewrite P1. cbn [rbind]. eexists. split; [reflexivity|]. apply pop_limbs_inv in P1. destruct P1 as [P4 P5].
    replace (length vs - (length (limbs b) - n))%nat with n in * by lia.
    replace (length (limbs b) - (length (limbs b) - n))%nat with n in * by lia.
    apply mk_bignat_at; cbn [with_params limbs limb_values value bparams limb_width n_limbs]; auto.
    + intros rho Ha one. rewrite P4. apply Forall2_firstn. eapply carries_ev; eauto.
    + rewrite firstn_length. lia.
    + unfold in_word. cbn [with_params bparams max_word]. now apply Forall_firstn'.
    + now apply Forall_firstn'.
  - exists b. split; auto. rewrite firstn_all2 by lia. exact Hb.
Qed.

(** ** group_limbs *)
Lemma top_group b g : well_shaped b -> limbs b <> [] -> (1 <= g)%nat -> (1 <= limb_width (bparams b))%nat ->
  exists c, group_limbs b g = Ok c /\ well_shaped c /\ value c = value b /\
    length (limbs c) = n_groups (length (limbs b)) g /\
    limb_width (bparams c) = (limb_width (bparams b) * g)%nat /\
    max_word (bparams c) = max_word (bparams b) * sum_n g (fun t => 2 ^ Z.of_nat (limb_width (bparams b) * t)) /\
    min_bits (bparams c) = min_bits (bparams b) /\
    (forall rho, bounded rho b -> max_word (bparams c) < modulus ->
       bounded rho c /\ int_of rho c = int_of rho b /\
       wires rho (limbs c) = group_digits (2 ^ Z.of_nat (limb_width (bparams b))) g
          (n_groups (length (limbs b)) g) (wires rho (limbs b))) /\
    (forall s vs, good s -> bignat_at s b vs -> max_word (bparams c) < modulus ->
       bignat_at s c (group_digits (2 ^ Z.of_nat (limb_width (bparams b))) g (n_groups (length vs) g) vs)).
Proof.
  intros [S1 S2] HN Hg Hw. assert (HL : (1 <= length (limbs b))%nat) by (destruct (limbs b); simpl; [congruence|lia]).
  destruct (group_limbs_ok b g HL Hg S2) as (c & H1 & H2 & H3 & H4 & H5 & H6 & H7).
  assert (HO : sum_n g (fun t => 2 ^ Z.of_nat (limb_width (bparams b) * t)) = ones (2 ^ Z.of_nat (limb_width (bparams b))) g).
  { apply sum_n_ext. intros. apply pow2_mul. }
  exists c. split; auto. rewrite H2. cbn [min_bits max_word limb_width]. rewrite ones_at_spec, HO by auto.
  split; [split; [rewrite H2, H3; reflexivity|exact H5]|]. split; auto. split; auto. split; auto. split; [apply Z.mul_comm|]. split; auto.
  assert (HB : forall vs, length vs = length (limbs b) -> Forall (fun v => 0 <= v <= max_word (bparams b)) vs ->
     Forall (fun d => 0 <= d <= ones (2 ^ Z.of_nat (limb_width (bparams b))) g * max_word (bparams b))
     (group_digits (2 ^ Z.of_nat (limb_width (bparams b))) g (n_groups (length (limbs b)) g) vs)).
  { intros vs HL' HF. apply group_digits_bound; auto using pow2_pos. destruct vs; [simpl in HL'; lia|]. inversion HF; lia. }
  split.
  - intros rho HB' HM. apply bounded_in_word in HB'.
    specialize (HB _ (map_length _ _) HB').
    assert (HC : wires rho (limbs c) = group_digits (2 ^ Z.of_nat (limb_width (bparams b))) g
          (n_groups (length (limbs b)) g) (wires rho (limbs b))).
    { apply ev_canon; [apply H6, ev_wires|]. eapply bounded_canon; eauto. }
    split; [|split; auto].
    + apply bounded_in_word. unfold in_word. rewrite HC, H2. cbn [max_word]. rewrite ones_at_spec by auto. exact HB.
    + unfold int_of. rewrite HC, H2. cbn [limb_width]. rewrite pow2_mul. apply value_of_group.
      unfold wires. rewrite map_length. now apply n_groups_fit.
  - intros s vs G Hb HM. pose proof Hb as (B1 & B2 & B3 & B4 & B5). pose proof (Forall2_length _ _ _ B2) as HL'.
    rewrite <- HL' in *. specialize (HB _ (eq_sym HL') (bignat_at_word _ _ _ Hb)).
    pose proof (bounded_canon _ _ HM HB) as HC.
    apply mk_bignat_at; auto.
    + intros rho Ha one. apply H6. eapply carries_ev; eauto.
    + rewrite (H7 _ B1), map_fmk_canon; auto.
    + rewrite H4, B3, H2. cbn [limb_width]. rewrite pow2_mul, value_of_group; auto.
      rewrite <- HL'. now apply n_groups_fit.
    + rewrite H2, group_digits_length. reflexivity.
    + unfold in_word. rewrite H2. cbn [max_word]. rewrite ones_at_spec by auto. exact HB.
Qed.

(** ** with_n_limbs, one, n_bits *)
Lemma value_of_pad B l n : value_of B (l ++ repeat 0 n) = value_of B l.
Proof. rewrite value_of_app, value_of_zeros. ring. Qed.
Lemma map_repeat' {A B} (f : A -> B) a n : map f (repeat a n) = repeat (f a) n.
Proof. induction n; simpl; f_equal; auto. Qed.

Lemma top_with_n_limbs b n : well_shaped b -> (length (limbs b) <= n)%nat -> 0 <= max_word (bparams b) ->
  exists c, with_n_limbs b n = Ok c /\ well_shaped c /\ length (limbs c) = n /\
    value c = value b /\ limb_width (bparams c) = limb_width (bparams b) /\
    max_word (bparams c) = max_word (bparams b) /\ min_bits (bparams c) = min_bits (bparams b) /\
    (forall rho, wires rho (limbs c) = wires rho (limbs b) ++ repeat 0 (n - length (limbs b)) /\
       int_of rho c = int_of rho b) /\
    (forall s vs, good s -> bignat_at s b vs -> bignat_at s c (vs ++ repeat 0 (n - length vs))).
Proof.
  intros [S1 S2] HL HM. unfold with_n_limbs. rewrite S1, (proj2 (Nat.ltb_ge _ _)) by auto.
  destruct (Nat.eqb_spec n (length (limbs b))).
  - exists b. subst n. rewrite Nat.sub_diag. cbn [repeat].
    split; auto. split; [split; auto|]. split; auto. split; auto. split; auto. split; auto. split; auto. split.
    + intros rho. now rewrite app_nil_r.
    + intros s vs G Hb. pose proof Hb as (B1 & B2 & _). rewrite (Forall2_length _ _ _ B2), Nat.sub_diag.
      cbn [repeat]. now rewrite app_nil_r.
  - assert (HR : Forall canon (repeat 0 (n - length (limbs b)))).
    { apply Forall_forall. intros x Hx. apply repeat_spec in Hx. subst. apply canon_0. }
    assert (HWr : forall rho, wires rho (limbs b ++ repeat lc_zero (n - length (limbs b))) =
       wires rho (limbs b) ++ repeat 0 (n - length (limbs b))).
    { intros rho. unfold wires. rewrite map_app, map_repeat'. reflexivity. }
    eexists. split; [reflexivity|]. cbn [limbs limb_values value bparams limb_width max_word min_bits].
    split; [|split; [|split; [|split; [|split; [|split; [|split]]]]]]; auto.
    + split; cbn [bparams n_limbs limbs limb_values]; unfold pad_to; rewrite app_length, repeat_length; [lia|].
      destruct (limb_values b) as [vs|]; cbn [option_map]; auto. destruct S2 as [S2 S3].
      rewrite app_length, repeat_length. split; [lia|]. apply Forall_app. split; auto. now rewrite S2.
    + unfold pad_to. rewrite app_length, repeat_length. lia.
    + intros rho. unfold int_of. cbn [limbs bparams limb_width]. unfold pad_to. rewrite HWr. split; auto. apply value_of_pad.
    + intros s vs G Hb. pose proof (bignat_at_word _ _ _ Hb) as Hwd. pose proof (bignat_at_canon _ _ _ Hb) as HC.
      pose proof Hb as (B1 & B2 & B3 & B4 & B5). pose proof (Forall2_length _ _ _ B2) as HL'. rewrite <- HL'.
      apply mk_bignat_at; cbn [limbs limb_values value bparams limb_width n_limbs]; auto.
      * intros rho Ha one. unfold pad_to. apply Forall2_app; [eapply carries_ev; eauto|].
        clear. induction (n - length (limbs b))%nat; simpl; constructor; auto. reflexivity.
      * rewrite B1. cbn [option_map]. unfold pad_to. now rewrite HL'.
      * rewrite B3, value_of_pad. reflexivity.
      * rewrite app_length, repeat_length. lia.
      * unfold in_word. cbn [bparams max_word]. apply Forall_app. split; auto.
        apply Forall_forall. intros x Hx. apply repeat_spec in Hx. subst. lia.
      * apply Forall_app. split; auto.
Qed.
Lemma top_with_n_limbs_panic b n : (n < n_limbs (bparams b))%nat -> with_n_limbs b n = Panic.
Proof. intros H. unfold with_n_limbs. now rewrite (proj2 (Nat.ltb_lt _ _)). Qed.

Lemma top_one w s : good s -> bignat_at s (bn_one w) [1] /\
  value (bn_one w) = Some 1 /\ min_bits_ok (bn_one w) 1 /\
  (forall rho, rho ONE = 1 -> wires rho (limbs (bn_one w)) = [1] /\ int_of rho (bn_one w) = 1).
Proof.
  intros G. assert (HC : canon 1) by (pose proof wf_two; red; lia).
  assert (HW : forall rho, rho ONE = 1 -> wires rho (limbs (bn_one w)) = [1]).
  { intros rho one. cbn [bn_one limbs wires map]. f_equal. apply feval_eqp; auto. lcs. now rewrite one. }
  split; [|split; [|split]].
  - apply mk_bignat_at; auto.
    + intros rho _ one. apply wires_ev; auto.
    + cbn [bn_one limb_values]. now rewrite fone_1.
    + cbn [bn_one value value_of]. f_equal. ring.
    + constructor; [cbn; lia|constructor].
  - reflexivity.
  - right. cbn. lia.
  - intros rho one. split; auto. unfold int_of. rewrite HW by auto. cbn [value_of]. ring.
Qed.

Lemma top_n_bits b rho k : well_shaped b -> bounded rho b -> max_word (bparams b) < 2 ^ Z.of_nat (limb_width (bparams b)) ->
  n_bits b = Ok k -> 0 <= int_of rho b < 2 ^ Z.of_nat k.
Proof.
  intros [S1 S2] HB HM Hk. unfold n_bits in Hk. destruct (Nat.ltb_spec 0 (n_limbs (bparams b))); [|discriminate].
  injection Hk as <-. apply bounded_in_word in HB. unfold in_word in HB. unfold int_of.
  set (B := 2 ^ Z.of_nat (limb_width (bparams b))) in *. rewrite S1 in *.
  pose proof (pow2_pos (limb_width (bparams b))) as HBp. fold B in HBp.
  destruct (exists_last (l := wires rho (limbs b))) as (vs & x & Hx).
  { unfold wires. destruct (limbs b); simpl in *; [lia|discriminate]. }
  assert (HL : length (limbs b) = S (length vs)).
  { rewrite <- (map_length (feval rho)). fold (wires rho (limbs b)). rewrite Hx, app_length. simpl. lia. }
  rewrite Hx in *. apply Forall_app in HB. destruct HB as [H1 H2]. inversion H2 as [|? ? H3 _]; subst.
  rewrite value_of_app. cbn [value_of]. rewrite Z.mul_0_r, Z.add_0_r.
  assert (HV : 0 <= value_of B vs < B ^ Z.of_nat (length vs)).
  { apply value_of_bound; auto. eapply Forall_impl; [|exact H1]. cbv beta; lia. }
  rewrite pow2_add, HL. replace (S (length vs) - 1)%nat with (length vs) by lia. rewrite pow2_mul. fold B.
  assert (HMx : max_word (bparams b) < 2 ^ Z.of_nat (bigint_bits (max_word (bparams b)))).
  { pose proof (proj1 (bigint_bits_le (max_word (bparams b)) _) (le_n _)). lia. }
  split; [nia|]. nia.
Qed.
Lemma top_n_bits_panic b : n_limbs (bparams b) = 0%nat -> n_bits b = Panic.
Proof. intros H. unfold n_bits. rewrite H. reflexivity. Qed.

Lemma bigint_bits_ones n : (1 <= n)%nat -> bigint_bits (2 ^ Z.of_nat n - 1) = n.
Proof.
  intros Hn. pose proof (pow2_pos n). apply Nat.le_antisymm.
  - apply bigint_bits_le. rewrite Z.abs_eq; lia.
  - apply Nat.nlt_ge. intros Hlt. assert (Hle : (bigint_bits (2 ^ Z.of_nat n - 1) <= n - 1)%nat) by lia.
    apply bigint_bits_le in Hle. rewrite Z.abs_eq in Hle by lia.
    replace n with (S (n - 1)) in Hle at 1 by lia. rewrite pow2_S in Hle. pose proof (pow2_pos (n - 1)). lia.
Qed.
Lemma top_n_bits_uncarried w : (1 <= w)%nat -> 2 ^ Z.of_nat (S w) <= modulus -> exists s b vs k v,
  good s /\ bignat_at s b vs /\ value b = Some v /\ limb_width (bparams b) = w /\ n_bits b = Ok k /\ 2 ^ Z.of_nat k <= v.
Proof.
  intros Hw HM. set (M := 2 ^ Z.of_nat (S w) - 1). pose proof (pow2_pos (S w)).
  assert (HC : canon M) by (unfold M; red; lia).
  destruct (top_alloc_from_limbs [M; M] (Some M) w 2 st_init good_init) as (b & s & H1 & H2 & H3 & H4 & H5 & H6);
    auto.
  exists s, b, [M; M]. exists (w + S w)%nat. eexists. split; auto. split; [|split; [exact H4|split; [now rewrite H6|split]]].
  - apply mk_bignat_at; auto.
    + intros rho Ha one. eapply carries_ev; eauto.
    + rewrite H6. exact H4.
    + rewrite H6. reflexivity.
    + unfold in_word. rewrite H6. cbn [max_word]. destruct HC. repeat constructor; lia.
  - unfold n_bits. rewrite H6. cbn [n_limbs limb_width max_word Nat.ltb Nat.leb Nat.sub].
    unfold M. rewrite bigint_bits_ones by lia. f_equal. lia.
  - cbn [value_of]. unfold M. rewrite pow2_add, pow2_S. pose proof (pow2_pos w). nia.
Qed.

(** ** recompose *)
Lemma top_recompose bv g : (1 <= length (bv_bits bv))%nat -> (1 <= g)%nat ->
  (match bv_vals bv with Some vs => length vs = length (bv_bits bv) | None => True end) ->
  exists c, recompose bv g = Ok c /\ well_shaped c /\ limb_width (bparams c) = g /\
    length (limbs c) = n_groups (length (bv_bits bv)) g /\ max_word (bparams c) = 2 ^ Z.of_nat g - 1 /\
    (forall rho bs, wires rho (bv_bits bv) = map Z.b2z bs -> (g < NUM_BITS)%nat ->
       int_of rho c = bits_value bs /\ Forall (fun v => v < 2 ^ Z.of_nat g) (wires rho (limbs c))) /\
    (forall s bs, good s -> bv_vals bv = Some bs -> Forall2 (fun l x => carries s l (Z.b2z x)) (bv_bits bv) bs ->
       (g < NUM_BITS)%nat -> exists vs, bignat_at s c vs /\ value c = Some (bits_value bs)).
Proof.
  intros HL Hg HV.
  set (num_i := fun i => mkNum (nth i (bv_bits bv) lc_zero) (option_map (fun vs => f_of_bool (nth i vs false)) (bv_vals bv))).
  set (ns := map num_i (seq 0 (length (bv_bits bv)))).
  assert (Hns : rmapM (fun p =>
     match bv_vals bv with
     | None => Ok (mkNum (snd p) None)
     | Some vs => let? v := idx vs (fst p) in Ok (mkNum (snd p) (Some (f_of_bool v)))
     end) (combine (seq 0 (length (bv_bits bv))) (bv_bits bv)) = Ok ns).
  { rewrite (combine_seq_map _ lc_zero). unfold ns. rewrite <- (map_map (fun i => (i, nth i (bv_bits bv) lc_zero)) (fun p => num_i (fst p))).
    apply rmapM_ok. intros p Hp. apply in_map_iff in Hp. destruct Hp as (i & <- & Hi). apply in_seq in Hi.
    cbn [fst snd]. unfold num_i. destruct (bv_vals bv) as [vs|]; auto. unfold idx.
    rewrite (nth_error_nth' vs false) by lia. reflexivity. }
  unfold recompose. rewrite Hns. cbn [rbind].
  assert (HLn : limbs (from_limbs ns 1) = bv_bits bv).
  { unfold from_limbs, ns. cbn [limbs]. rewrite map_map. cbn [n_lc num_i]. apply map_nth_seq. }
  assert (HP : bparams (from_limbs ns 1) = mkParams 0 1 1 (length (bv_bits bv))).
  { unfold from_limbs, ns. cbn [bparams]. rewrite map_length, seq_length. reflexivity. }
  assert (HVn : limb_values (from_limbs ns 1) = option_map (map Z.b2z) (bv_vals bv) /\
     value (from_limbs ns 1) = option_map bits_value (bv_vals bv)).
  { unfold from_limbs. cbn [limb_values value]. unfold ns. rewrite map_map. unfold num_i. cbn [n_val].
    destruct (bv_vals bv) as [vs|]; cbn [option_map].
    - rewrite <- (map_map (fun i => f_of_bool (nth i vs false)) Some), all_some_map. cbn [option_map].
      rewrite <- HV. rewrite <- (map_map (fun i => nth i vs false) f_of_bool), map_nth_seq.
      assert (Hb : map f_of_bool vs = map Z.b2z vs) by (apply map_ext; apply f_of_bool_b2z). rewrite Hb.
      split; auto. f_equal. rewrite limbs_to_nat_canon; [reflexivity|]. apply Forall_map, Forall_forall. intros; apply b2z_canon.
    - destruct (bv_bits bv); [simpl in HL; lia|]. auto. }
  destruct HVn as [HVn HVv].
  assert (HS : well_shaped (from_limbs ns 1)).
  { split; [rewrite HP, HLn; reflexivity|]. rewrite HVn, HLn. destruct (bv_vals bv) as [vs|]; cbn [option_map]; auto.
    rewrite map_length. split; auto. apply Forall_map, Forall_forall. intros; apply b2z_canon. }
  destruct (top_group (from_limbs ns 1) g HS) as (c & H1 & H2 & H3 & H4 & H5 & H6 & H7 & H8 & H9); auto.
  { rewrite HLn. destruct (bv_bits bv); [simpl in HL; lia|discriminate]. }
  rewrite HLn in H4. rewrite HP in *. cbn [limb_width max_word min_bits] in *.
  assert (HO : sum_n g (fun t => 2 ^ Z.of_nat (1 * t)) = 2 ^ Z.of_nat g - 1).
  { pose proof (ones_spec (2 ^ Z.of_nat 1) g) as HO. unfold ones in HO. change (2 ^ Z.of_nat 1) with 2 in HO.
    rewrite <- HO. rewrite Z.mul_1_l. apply sum_n_ext. intros i _. now rewrite Nat.mul_1_l. }
  rewrite HO in *. rewrite Z.mul_1_l in H6.
  exists c. split; auto. split; auto. split; [lia|]. split; auto. split; auto. split.
  - intros rho bs HB Hn. pose proof (width_lt_modulus g Hn).
    destruct (H8 rho) as (G1 & G2 & _); [|lia|].
    + unfold bounded. rewrite HLn, HB, HP. cbn [max_word]. apply Forall_map, Forall_forall. intros x _. pose proof (b2z_range x). lia.
    + split.
      * rewrite G2. unfold int_of. rewrite HLn, HB, HP. reflexivity.
      * unfold bounded in G1. rewrite H6 in G1. eapply Forall_impl; [|exact G1]. cbv beta. lia.
  - intros s bs G Hv Hc Hn. pose proof (width_lt_modulus g Hn). rewrite Hv in *. cbn [option_map] in *.
    eexists. split; [apply (H9 s (map Z.b2z bs)); auto; [|lia]|now rewrite H3].
    apply mk_bignat_at; auto.
    + intros rho Ha one. rewrite HLn. clear -Hc Ha one W. induction Hc; cbn [map]; constructor; auto.
      eapply carries_eqp; eauto.
    + rewrite HP, map_length. cbn. auto.
    + unfold in_word. rewrite HP. cbn [max_word]. apply Forall_map, Forall_forall. intros x _. pose proof (b2z_range x). lia.
    + apply Forall_map, Forall_forall. intros; apply b2z_canon.
Qed.
Lemma top_recompose_panic bv g : bv_bits bv = [] /\ (overflow_checks = true \/ g <> 1%nat) \/ (g = 0%nat /\
  match bv_vals bv with Some vs => length vs = length (bv_bits bv) | None => True end) -> recompose bv g = Panic.
Proof.
  intros [[H H']|[-> HV]].
  - unfold recompose. rewrite H. cbn [length seq combine rmapM rbind]. apply group_limbs_panic. left. split; [reflexivity|exact H'].
  - unfold recompose. destruct (rmapM _ _) eqn:Er; cbn [rbind]; [|exfalso|reflexivity].
    + apply group_limbs_panic; auto.
    + revert Er. generalize (combine (seq 0 (length (bv_bits bv))) (bv_bits bv)).
      destruct (bv_vals bv) as [vs|]; intros l; induction l as [|p l IH]; cbn [rmapM]; try discriminate.
      * unfold idx at 1. destruct (nth_error vs (fst p)); cbn [rbind]; try discriminate.
        destruct (rmapM _ l); cbn [rbind]; try discriminate. intros H. injection H as ->. now apply IH.
      * cbn [rbind]. destruct (rmapM _ l); cbn [rbind]; try discriminate. intros H. injection H as ->. now apply IH.
Qed.

Lemma top_recompose_empty bv : bv_bits bv = [] -> overflow_checks = false ->
  exists c, recompose bv 1 = Ok c /\ limbs c = [] /\ limb_width (bparams c) = 1%nat /\ n_limbs (bparams c) = 0%nat.
Proof.
  intros H HC. unfold recompose. rewrite H. cbn [length seq combine rmapM rbind].
  assert (HN : limbs (from_limbs [] 1) = []) by reflexivity.
  destruct (group_limbs_nil_ok (from_limbs [] 1) HN HC) as (c & Hc); [right; reflexivity|].
  exists c. split; [exact Hc|]. destruct (group_limbs_nil _ _ _ HN Hc) as (_ & _ & L & _ & ->). auto.
Qed.

End Top.
