(** Every gadget builds the same circuit on inputs made of the same wires. *)
From Coq Require Import ZArith Bool String List Lia.
From Verif.Model Require Import Base CS Bellpepper Util Poly Bignat Gadget Ints Median Difficulty HeaderStep.
From Verif.Spec Require Import SpecShape.
From Verif.Proofs Require Import ShapeP.
Import ListNotations.

Notation any := (fun _ _ => True).

Section Shape.
Context {E : Env}.

Ltac bnd := eapply sh_bind.
Ltac al := first [apply sh_alloc | unfold alloc, alloc_input; apply sh_alloc].

(** ** bellpepper *)
Lemma g_an_alloc w1 w2 : sh same_an (an_alloc w1) (an_alloc w2).
Proof. unfold an_alloc. bnd; [al|]. intros [x v] [y u]; cbn. unfold same_an; cbn. auto. Qed.
Lemma g_an_add a1 a2 b1 b2 : same_an a1 a2 -> same_an b1 b2 -> sh same_an (an_add a1 b1) (an_add a2 b2).
Proof.
  unfold same_an. intros H1 H2. unfold an_add. bnd; [al|]. intros [x v] [y u]; cbn [fst]; intros ->.
  rewrite H1, H2. bnd; [apply sh_enforce; reflexivity|]. intros _ _ _. reflexivity.
Qed.
Lemma g_ab_alloc w1 w2 : sh (fun a b => ab_var a = ab_var b) (ab_alloc w1) (ab_alloc w2).
Proof.
  unfold ab_alloc. bnd; [al|]. intros [x v] [y u]; cbn [fst]; intros ->.
  bnd; [apply sh_enforce; reflexivity|]. intros _ _ _. reflexivity.
Qed.
Lemma g_bool_lc a b c : same_bool a b -> bool_lc a c = bool_lc b c.
Proof. destruct a, b; cbn; intros H; try contradiction; rewrite ?H; reflexivity. Qed.
Lemma g_bool_and a1 a2 b1 b2 : same_bool a1 a2 -> same_bool b1 b2 -> sh same_bool (bool_and a1 b1) (bool_and a2 b2).
Proof.
  intros Ha Hb.
  assert (K : forall f g : prog allocated_bit, sh (fun a b => ab_var a = ab_var b) f g ->
     sh same_bool (let! r := f in Ret (BIs r)) (let! r := g in Ret (BIs r))).
  { intros f g H. bnd; [exact H|]. intros. cbn. auto. }
  destruct a1 as [x1|x1|[|]], a2 as [x2|x2|[|]]; cbn in Ha; try contradiction; try discriminate;
  destruct b1 as [y1|y1|[|]], b2 as [y2|y2|[|]]; cbn in Hb; try contradiction; try discriminate;
    unfold bool_and; try (cbn; auto; fail); apply K; unfold ab_and, ab_and_not, ab_nor; rewrite Ha, Hb;
    (bnd; [al|]; intros [x v] [y u]; cbn [fst]; intros ->; bnd; [apply sh_enforce; reflexivity|]; intros _ _ _; reflexivity).
Qed.
Lemma g_bool_not a b : same_bool a b -> same_bool (bool_not a) (bool_not b).
Proof. destruct a, b; cbn; intros; try contradiction; subst; auto. Qed.
Lemma g_bool_or a1 a2 b1 b2 : same_bool a1 a2 -> same_bool b1 b2 -> sh same_bool (bool_or a1 b1) (bool_or a2 b2).
Proof.
  intros Ha Hb. unfold bool_or. bnd; [apply sh_ns, g_bool_and; apply g_bool_not; assumption|].
  intros. cbn. apply g_bool_not; assumption.
Qed.
Lemma g_cond_rev a1 a2 b1 b2 c1 c2 : same_an a1 a2 -> same_an b1 b2 -> same_bool c1 c2 ->
  sh (fun p q => same_an (fst p) (fst q) /\ same_an (snd p) (snd q)) (an_conditionally_reverse a1 b1 c1) (an_conditionally_reverse a2 b2 c2).
Proof.
  intros H1 H2 H3. unfold an_conditionally_reverse. cbv zeta.
  bnd; [apply sh_ns, g_an_alloc|]. intros x y Hxy. unfold same_an in *. rewrite (g_bool_lc _ _ _ H3), H1, H2, Hxy.
  bnd; [apply sh_enforce; reflexivity|]. intros _ _ _. bnd; [apply sh_ns, g_an_alloc|]. intros z t Hzt. unfold same_an in *. rewrite Hzt.
  bnd; [apply sh_enforce; reflexivity|]. intros _ _ _. cbn. auto.
Qed.
Lemma g_u64 v1 v2 : sh (Forall2 same_bool) (u64_into_boolean_vec_le v1) (u64_into_boolean_vec_le v2).
Proof.
  unfold u64_into_boolean_vec_le. eapply sh_mapM; [apply F2_refl|]. intros i ? <-.
  bnd; [apply sh_ns, g_ab_alloc|]. intros. cbn. auto.
Qed.
Lemma g_sha l1 l2 : Forall2 same_bool l1 l2 -> sh (Forall2 same_bool) (sha256_gadget l1) (sha256_gadget l2).
Proof.
  intros H. unfold sha256_gadget. rewrite <- (F2_len _ _ _ H).
  destruct (negb _); [apply sh_crash_l|]. cbv zeta.
  bnd; [eapply sh_mapM with (RB := fun a b => ab_var a = ab_var b); [apply F2_refl|]|].
  { intros i ? <-. bnd; [al|]. intros [x v] [y u]; cbn. auto. }
  intros o1 o2 Ho. cbn. split; [reflexivity|]. split.
  - f_equal.
    + induction H; cbn; [reflexivity|]. f_equal; [apply g_bool_lc; assumption|assumption].
    + induction Ho; cbn; [reflexivity|]. congruence.
  - induction Ho; cbn; constructor; auto.
Qed.

(** ** util *)
Lemma g_bit_alloc w1 w2 : sh same_bit (bit_alloc w1) (bit_alloc w2).
Proof.
  unfold bit_alloc. bnd; [al|]. intros [x v] [y u]; cbn [fst]; intros ->.
  bnd; [apply sh_enforce; reflexivity|]. intros _ _ _. reflexivity.
Qed.
Lemma g_bit_constrain a b c : same_bit a b -> sh any (bit_constrain_value a c) (bit_constrain_value b c).
Proof. intros H. unfold bit_constrain_value. rewrite H. apply sh_enforce; reflexivity. Qed.
Lemma g_num_alloc w1 w2 : sh same_num (num_alloc w1) (num_alloc w2).
Proof. unfold num_alloc. bnd; [al|]. intros [x v] [y u]; cbn. unfold same_num; cbn. congruence. Qed.
Lemma g_fits n1 n2 k : same_num n1 n2 -> sh any (fits_in_bits n1 k) (fits_in_bits n2 k).
Proof.
  intros H. unfold fits_in_bits.
  bnd; [eapply sh_mapM with (RB := eq); [apply F2_refl|]|].
  { intros i ? <-. bnd; [al|]. intros [x v] [y u]; cbn. auto. }
  intros b1 b2 Hb. assert (b1 = b2) as -> by (induction Hb; congruence).
  bnd; [eapply sh_iterM; [apply F2_refl|]|].
  { intros p ? <-. apply sh_enforce; reflexivity. }
  intros _ _ _. rewrite H. apply sh_enforce; reflexivity.
Qed.
Lemma g_wbits f l1 l2 : Forall2 same_bit l1 l2 -> weighted_bits f l1 = weighted_bits f l2.
Proof. intros H. revert f. induction H; intros f; cbn; [reflexivity|]. rewrite H, IHForall2. reflexivity. Qed.
Lemma g_is_equal_bits n1 n2 b1 b2 : same_num n1 n2 -> same_bv b1 b2 -> sh any (num_is_equal n1 b1) (num_is_equal n2 b2).
Proof. intros H [_ H2]. unfold num_is_equal. rewrite H, (g_wbits _ _ _ H2). apply sh_enforce; reflexivity. Qed.
Lemma same_bit_lcs l1 l2 : Forall2 same_bit l1 l2 -> map b_lc l1 = map b_lc l2.
Proof. intros H. apply F2_map. exact H. Qed.
Lemma g_decompose n1 n2 k : same_num n1 n2 -> sh same_bv (num_decompose n1 k) (num_decompose n2 k).
Proof.
  intros H. unfold num_decompose. bnd; [apply sh_lift_any|]. intros v1 v2 _.
  bnd; [eapply sh_mapM with (RB := same_bit); [apply F2_refl|]|].
  { intros i ? <-. apply sh_ns, g_bit_alloc. }
  intros b1 b2 Hb. rewrite H, (g_wbits _ _ _ Hb). bnd; [apply sh_enforce; reflexivity|]. intros _ _ _. cbn.
  split; cbn; [apply same_bit_lcs|]; assumption.
Qed.
Lemma g_as_sapling n1 n2 : same_num n1 n2 -> sh same_an (as_sapling_allocated_num n1) (as_sapling_allocated_num n2).
Proof.
  intros H. unfold as_sapling_allocated_num. bnd; [apply sh_ns, g_an_alloc|]. intros x y Hxy. rewrite Hxy, H.
  bnd; [apply sh_enforce; reflexivity|]. intros _ _ _. exact Hxy.
Qed.

(** ** poly *)
Lemma g_product a1 a2 b1 b2 : same_poly a1 a2 -> same_poly b1 b2 -> sh same_poly (alloc_product a1 b1) (alloc_product a2 b2).
Proof.
  unfold same_poly. intros Ha Hb. unfold alloc_product. rewrite Ha, Hb.
  bnd; [apply sh_lift, so_eq|]. intros n ? <-. bnd; [apply sh_lift_any|]. intros v1 v2 _.
  bnd; [eapply sh_mapM with (RB := eq); [apply F2_refl|]|].
  { intros i ? <-. bnd; [al|]. intros [x v] [y u]; cbn. congruence. }
  intros c1 c2 Hc. assert (c1 = c2) as -> by (induction Hc; congruence). cbv zeta.
  bnd; [eapply sh_iterM; [apply F2_refl|]|].
  { intros i ? <-. apply sh_enforce; reflexivity. }
  intros _ _ _. reflexivity.
Qed.
Lemma g_poly_sum a1 a2 b1 b2 : same_poly a1 a2 -> same_poly b1 b2 -> same_poly (poly_sum a1 b1) (poly_sum a2 b2).
Proof. unfold same_poly, poly_sum; cbn. intros -> ->. reflexivity. Qed.

(** ** bignat *)
Lemma g_limbs (f g : nat -> res Z) n : sh (Forall2 (fun a b : var * option Z => fst a = fst b))
  (mapM (fun i => alloc (Nmi "limb " i "") (f i)) (seq 0 n)) (mapM (fun i => alloc (Nmi "limb " i "") (g i)) (seq 0 n)).
Proof. eapply sh_mapM; [apply F2_refl|]. intros i ? <-. al. Qed.
Lemma g_xs l1 l2 : Forall2 (fun a b : var * option Z => fst a = fst b) l1 l2 -> xs_lcs l1 = xs_lcs l2.
Proof. unfold xs_lcs. induction 1; cbn; congruence. Qed.
Lemma g_alloc_nat f1 f2 w n : sh same_bignat (alloc_from_nat f1 w n) (alloc_from_nat f2 w n).
Proof.
  unfold alloc_from_nat. cbv zeta. bnd; [apply g_limbs|]. intros l1 l2 H. apply g_xs in H.
  repeat match goal with |- context [match captured ?l with _ => _ end] => destruct (captured l) end;
  repeat match goal with |- context [rbind ?f ?k] => destruct (rbind f k) as [[? ?]| |] end; cbn; unfold same_bignat; cbn; auto.
Qed.
Lemma g_alloc_limbs f1 f2 mw w n : sh same_bignat (alloc_from_limbs f1 mw w n) (alloc_from_limbs f2 mw w n).
Proof.
  unfold alloc_from_limbs. cbv zeta. bnd; [apply g_limbs|]. intros l1 l2 H. apply g_xs in H.
  repeat match goal with |- context [match captured ?l with _ => _ end] => destruct (captured l) end; destruct f1, f2;
  cbn; unfold same_bignat; cbn; auto.
Qed.
Lemma g_from_limbs l1 l2 w : Forall2 same_num l1 l2 -> same_bignat (from_limbs l1 w) (from_limbs l2 w).
Proof.
  intros H. unfold from_limbs, same_bignat; cbn. rewrite (F2_len _ _ _ H). split; [|reflexivity].
  apply F2_map. exact H.
Qed.
Lemma so_limbs b1 b2 : same_bignat b1 b2 -> Forall2 (fun p q => fst p = fst q /\ same_outcome same_num (snd p) (snd q))
  (combine (seq 0 (List.length (limbs b1))) (limb_nums b1)) (combine (seq 0 (List.length (limbs b2))) (limb_nums b2)).
Proof.
  intros [Hl Hp]. rewrite <- Hl. apply F2_seq; [|unfold limb_nums; rewrite map_length, combine_length, seq_length; lia].
  unfold limb_nums. rewrite <- Hl. induction (combine (seq 0 (List.length (limbs b1))) (limbs b1)) as [|p l IH]; cbn; constructor; auto.
  destruct (limb_values b1), (limb_values b2).
  all: repeat match goal with |- context [idx ?l ?i] => destruct (idx l i) end; cbn;
    first [apply so_ok; reflexivity | apply so_panic | apply so_err | intros ? ?; discriminate].
Qed.
Lemma g_as_limbs b1 b2 : same_bignat b1 b2 -> same_outcome (Forall2 same_num) (as_limbs b1) (as_limbs b2).
Proof.
  intros [Hl Hp]. unfold as_limbs. rewrite <- Hl. eapply so_rmapM; [apply F2_refl|]. intros p ? <-.
  destruct (limb_values b1), (limb_values b2).
  all: repeat match goal with |- context [idx ?l ?i] => destruct (idx l i) end; cbn;
    first [apply so_ok; reflexivity | apply so_panic | apply so_err | intros ? ?; discriminate].
Qed.
Lemma g_inputize b1 b2 : same_bignat b1 b2 -> sh any (bn_inputize b1) (bn_inputize b2).
Proof.
  intros [Hl Hp]. unfold bn_inputize. rewrite <- Hl. eapply sh_iterM; [apply F2_refl|]. intros p ? <-.
  apply sh_ns. bnd; [al|]. intros [x v] [y u]; cbn [fst]; intros ->. apply sh_enforce; reflexivity.
Qed.
Lemma so_width a1 a2 b1 b2 : same_bignat a1 a2 -> same_bignat b1 b2 -> same_outcome eq (width_agreement a1 b1) (width_agreement a2 b2).
Proof. intros [_ Ha] [_ Hb]. unfold width_agreement. rewrite Ha, Hb. apply so_eq. Qed.
Lemma g_equal_ge a1 a2 b1 b2 : same_bignat a1 a2 -> same_bignat b1 b2 -> sh any (equal_ge a1 b1) (equal_ge a2 b2).
Proof.
  intros Ha Hb. unfold equal_ge. bnd; [apply sh_lift, so_width; assumption|]. intros _ _ _.
  destruct Ha as [Ha _], Hb as [Hb _]. rewrite Ha, Hb. cbv zeta.
  bnd; [eapply sh_iterM; [apply F2_refl|]; intros i ? <-; apply sh_enforce; reflexivity|]. intros _ _ _.
  eapply sh_iterM; [apply F2_refl|]; intros i ? <-; apply sh_enforce; reflexivity.
Qed.
Lemma g_equal a1 a2 b1 b2 : same_bignat a1 a2 -> same_bignat b1 b2 -> sh any (equal a1 b1) (equal a2 b2).
Proof.
  intros Ha Hb. unfold equal. destruct Ha as [Ha Pa], Hb as [Hb Pb]. rewrite Ha, Hb.
  destruct (_ <? _)%nat; apply g_equal_ge; split; assumption.
Qed.
Lemma g_equals a1 a2 b1 b2 : same_an a1 a2 -> same_an b1 b2 -> sh same_bool (equals a1 b1) (equals a2 b2).
Proof.
  intros Ha Hb. unfold equals. cbv zeta. rewrite Ha, Hb.
  bnd; [apply sh_ns, g_ab_alloc|]. intros r1 r2 Hr. rewrite Hr.
  bnd; [apply sh_ns, g_an_alloc|]. intros d1 d2 Hd. rewrite Hd.
  bnd; [apply sh_enforce; reflexivity|]. intros _ _ _.
  bnd; [apply sh_ns, g_an_alloc|]. intros i1 i2 Hi. rewrite Hi.
  bnd; [apply sh_ns, g_an_alloc|]. intros t1 t2 Ht. rewrite Ht.
  do 4 (bnd; [apply sh_enforce; reflexivity|]; intros _ _ _). exact Hr.
Qed.
Lemma g_is_equal a1 a2 b1 b2 : same_bignat a1 a2 -> same_bignat b1 b2 -> sh same_bool (is_equal a1 b1) (is_equal a2 b2).
Proof.
  intros Ha Hb. unfold is_equal. pose proof Ha as [Ha' _]. pose proof Hb as [Hb' _]. rewrite Ha', Hb'.
  destruct (negb _); [apply sh_fail_l|].
  bnd; [apply sh_lift, so_width; assumption|]. intros _ _ _.
  eapply sh_foldM; [apply F2_refl| |reflexivity]. intros s t i ? Hs <-.
  bnd; [apply sh_ns, g_an_alloc|]. intros x1 x2 Hx. rewrite Hx. bnd; [apply sh_enforce; reflexivity|]. intros _ _ _.
  bnd; [apply sh_ns, g_an_alloc|]. intros y1 y2 Hy. rewrite Hy. bnd; [apply sh_enforce; reflexivity|]. intros _ _ _.
  bnd; [apply sh_ns, g_equals; assumption|]. intros. apply sh_ns, g_bool_and; assumption.
Qed.
Lemma g_wf b1 b2 : same_bignat b1 b2 -> sh any (assert_well_formed b1) (assert_well_formed b2).
Proof.
  intros H. unfold assert_well_formed. eapply sh_iterM; [apply so_limbs, H|]. intros [i r] [j q]; cbn. intros [-> Hr].
  bnd; [apply sh_lift, Hr|]. intros. destruct H as [_ ->]. apply sh_ns, g_fits. assumption.
Qed.
Lemma g_bn_decompose b1 b2 : same_bignat b1 b2 -> sh same_bv (bn_decompose b1) (bn_decompose b2).
Proof.
  intros H. unfold bn_decompose. bnd; [eapply sh_mapM with (RB := same_bv); [apply so_limbs, H|]|].
  { intros [i r] [j q]; cbn. intros [-> Hr]. bnd; [apply sh_lift, Hr|]. intros. destruct H as [_ ->]. apply sh_ns, g_decompose. assumption. }
  intros l1 l2 Hl. cbv zeta. cbn. split; cbn.
  - apply F2_flat. eapply F2_mono; [|exact Hl]. intros a b [Hab _]. exact Hab.
  - induction Hl; cbn; [constructor|]. apply Forall2_app; [apply H0|assumption].
Qed.
Lemma g_from_num n1 n2 w k : same_num n1 n2 -> sh same_bignat (from_num n1 w k) (from_num n2 w k).
Proof.
  intros H. unfold from_num. bnd; [apply sh_ns, g_alloc_nat|]. intros b1 b2 Hb.
  bnd; [apply sh_ns, g_bn_decompose, Hb|]. intros v1 v2 Hv. bnd; [apply sh_ns, g_is_equal_bits; assumption|]. intros _ _ _. exact Hb.
Qed.
Lemma g_group b1 b2 k : same_bignat b1 b2 -> same_outcome same_bignat (group_limbs b1 k) (group_limbs b2 k).
Proof.
  intros [Hl Hp]. unfold group_limbs. rewrite Hl, Hp. eapply so_bind; [apply so_eq|]. intros n ? <-.
  cbv zeta. eapply so_bind; [apply so_any|]. intros v1 v2 _.
  eapply so_bind; [apply so_eq|]. intros ls ? <-. apply so_ok. split; reflexivity.
Qed.
Lemma g_recompose b1 b2 k : same_bv b1 b2 -> same_outcome same_bignat (recompose b1 k) (recompose b2 k).
Proof.
  intros [Hl Hp]. unfold recompose. rewrite Hl.
  eapply so_bind; [eapply so_rmapM with (RB := same_num); [apply F2_refl|]|].
  { intros p ? <-. destruct (bv_vals b1), (bv_vals b2).
    all: repeat match goal with |- context [idx ?l ?i] => destruct (idx l i) end; cbn;
    first [apply so_ok; reflexivity | apply so_panic | apply so_err | intros ? ?; discriminate]. }
  intros l1 l2 Hs. apply g_group, g_from_limbs, Hs.
Qed.
Lemma g_set_min b1 b2 k : same_bignat b1 b2 -> same_bignat (set_min_bits b1 k) (set_min_bits b2 k).
Proof. intros [Hl Hp]. unfold set_min_bits, with_params, same_bignat; cbn. rewrite Hp. auto. Qed.
Lemma g_vec_pop {A B} (R : A -> B -> Prop) l1 l2 : Forall2 R l1 l2 ->
  same_outcome (fun p q => R (fst p) (fst q) /\ Forall2 R (snd p) (snd q)) (unwrap (vec_pop l1)) (unwrap (vec_pop l2)).
Proof.
  intros H. apply so_unwrap. unfold vec_pop. apply F2_rev in H. destruct H; intros p q; [discriminate|].
  intros [= <-] [= <-]. cbn. split; [assumption|]. apply F2_rev. assumption.
Qed.
Lemma g_into_bits b1 b2 : same_bv b1 b2 -> same_outcome (Forall2 same_bit) (bv_into_bits b1) (bv_into_bits b2).
Proof.
  intros [Hl _].
  assert (K : forall b l, bv_into_bits b = Ok l -> map b_lc l = bv_bits b).
  { clear. intros b l. unfold bv_into_bits. destruct (bv_vals b) as [vs|].
    - assert (G : forall ls k m, rmapM (fun p : nat * LC => let? v := idx vs (fst p) in Ok (mkBit (snd p) (Some v)))
         (combine (seq k (List.length ls)) ls) = Ok m -> map b_lc m = ls).
      { induction ls as [|a ls IH]; intros k m; cbn; [intros [= <-]; reflexivity|].
        destruct (idx vs k); cbn; try discriminate. destruct (rmapM _ _) eqn:Er; cbn; try discriminate.
        intros [= <-]. cbn. f_equal. eapply IH, Er. }
      apply G.
    - intros [= <-]. rewrite map_map. cbn. apply map_id. }
  intros l1 l2 H1 H2. apply K in H1, H2. apply F2_map. congruence.
Qed.
Lemma g_full_bits b1 b2 : same_bignat b1 b2 -> sh same_bignat (enforce_full_bits b1) (enforce_full_bits b2).
Proof.
  intros H. pose proof H as [Hl Hp]. unfold enforce_full_bits. rewrite Hl, Hp.
  bnd; [apply sh_lift_any|]. intros v1 v2 _.
  bnd; [apply sh_lift, so_eq|]. intros [lc ?] ? <-.
  bnd; [apply sh_ns, g_decompose; reflexivity|]. intros d1 d2 Hd.
  bnd; [apply sh_lift, g_into_bits, Hd|]. intros l1 l2 Hls.
  bnd; [apply sh_lift, g_vec_pop, Hls|]. intros [x ?] [y ?]; cbn [fst snd]; intros [Hx _].
  bnd; [apply sh_ns, g_bit_constrain, Hx|]. intros _ _ _. apply g_set_min, H.
Qed.
Lemma g_min_bits b1 b2 k : same_bignat b1 b2 -> sh same_bignat (enforce_min_bits b1 k) (enforce_min_bits b2 k).
Proof.
  intros H. unfold enforce_min_bits. bnd; [apply sh_ns, g_bn_decompose, H|]. intros d1 d2 Hd.
  bnd; [apply sh_lift, g_into_bits, Hd|]. intros l1 l2 Hls.
  rewrite (F2_len _ _ _ Hls). bnd; [apply sh_lift, so_eq|]. intros j ? <-. cbv zeta.
  bnd; [al|]. intros [x v] [y u]; cbn [fst]; intros ->.
  assert (Hs : sum_bits (skipn j l1) = sum_bits (skipn j l2)).
  { unfold sum_bits. apply F2_flat. apply (F2_skipn _ _ _ Hls j). }
  rewrite Hs. bnd; [apply sh_enforce; reflexivity|]. intros _ _ _. apply g_set_min, H.
Qed.
Lemma g_concat a1 a2 b1 b2 : same_bignat a1 a2 -> same_bignat b1 b2 -> same_outcome same_bignat (concat a1 b1) (concat a2 b2).
Proof.
  intros Ha Hb. unfold concat. eapply so_bind; [apply so_width; assumption|]. intros w ? <-.
  destruct Ha as [Ha Pa], Hb as [Hb Pb]. rewrite Ha, Hb, Pa, Pb. apply so_ok. split; reflexivity.
Qed.
Lemma g_pop k : forall b1 b2, same_bignat b1 b2 -> same_outcome same_bignat (pop_limbs k b1) (pop_limbs k b2).
Proof.
  induction k as [|k IH]; intros b1 b2 H; cbn; [apply so_ok, H|]. pose proof H as [Hl Hp].
  destruct (limb_values b1), (limb_values b2);
  repeat match goal with |- context [unwrap ?l] => destruct (unwrap l) as [?| |] end; cbn;
  repeat match goal with |- context [let (_, _) := ?p in _] => destruct p end; cbn;
  try (apply so_panic); try (apply so_err); try (intros ? ?; discriminate).
  all: repeat match goal with |- context [value ?l] => destruct (value l) end; cbn;
   try (apply so_panic); try (apply so_err); try (intros ? ?; discriminate).
  all: apply IH; unfold same_bignat; cbn; split; congruence.
Qed.
Lemma g_truncate b1 b2 n : same_bignat b1 b2 -> same_outcome same_bignat (truncate_limbs b1 n) (truncate_limbs b2 n).
Proof.
  intros H. pose proof H as [Hl Hp]. unfold truncate_limbs. rewrite Hl, Hp. apply so_if; [|apply so_ok, H].
  eapply so_bind; [apply g_pop, H|]. intros c1 c2 [Hc _]. apply so_ok. split; cbn; auto.
Qed.
Lemma g_from_poly p1 p2 w mw : same_poly p1 p2 -> same_bignat (from_poly p1 w mw) (from_poly p2 w mw).
Proof. intros H. unfold from_poly, same_bignat; cbn. rewrite H. auto. Qed.
Lemma g_carry_step a1 a2 b1 b2 n mw base cb s1 s2 i : same_bignat a1 a2 -> same_bignat b1 b2 ->
  (fst s1 = fst s2 /\ same_num (snd s1) (snd s2)) ->
  sh (fun p q => fst p = fst q /\ same_num (snd p) (snd q)) (carry_step a1 b1 n mw base cb s1 i) (carry_step a2 b2 n mw base cb s2 i).
Proof.
  intros [Ha _] [Hb _]. destruct s1 as [x1 c1], s2 as [x2 c2]; cbn [fst snd]. intros [-> Hc]. unfold carry_step.
  bnd; [apply sh_ns, g_num_alloc|]. intros d1 d2 Hd. cbv zeta.
  do 3 (bnd; [apply sh_lift, so_eq|]; intros ? ? <-).
  unfold same_num in Hc, Hd. rewrite Hc, Hd, Ha, Hb. bnd; [apply sh_enforce; reflexivity|]. intros _ _ _.
  bnd; [|intros _ _ _; cbn; split; [reflexivity|exact Hd]].
  instantiate (1 := any). destruct (_ <? _)%nat; [apply sh_ns, g_fits; exact Hd|].
  bnd; [apply sh_lift, so_eq|]; intros ? ? <-. apply sh_enforce; reflexivity.
Qed.
Lemma g_carried a1 a2 b1 b2 : same_bignat a1 a2 -> same_bignat b1 b2 -> sh any (equal_when_carried a1 b1) (equal_when_carried a2 b2).
Proof.
  intros Ha Hb. unfold equal_when_carried. bnd; [apply sh_lift, so_width; assumption|]. intros w ? <-. cbv zeta.
  pose proof Ha as [La Pa]. pose proof Hb as [Lb Pb]. rewrite La, Lb, Pa, Pb.
  bnd; [eapply sh_foldM with (RA := eq) (RS := fun p q => fst p = fst q /\ same_num (snd p) (snd q)); [apply F2_refl| |]|].
  - intros s t i ? Hs <-. apply g_carry_step; assumption.
  - split; reflexivity.
  - intros _ _ _. bnd; [eapply sh_iterM; [apply F2_refl|]; intros i ? <-; apply sh_enforce; reflexivity|]. intros _ _ _.
    eapply sh_iterM; [apply F2_refl|]; intros i ? <-; apply sh_enforce; reflexivity.
Qed.
Lemma g_regroup a1 a2 b1 b2 : same_bignat a1 a2 -> same_bignat b1 b2 ->
  sh any (equal_when_carried_regroup a1 b1) (equal_when_carried_regroup a2 b2).
Proof.
  intros Ha Hb. unfold equal_when_carried_regroup. bnd; [apply sh_lift, so_width; assumption|]. intros w ? <-. cbv zeta.
  pose proof Ha as [La Pa]. pose proof Hb as [Lb Pb]. rewrite Pa, Pb.
  bnd; [apply sh_lift, so_eq|]; intros ? ? <-. bnd; [apply sh_lift, so_eq|]; intros ? ? <-.
  bnd; [apply sh_lift, g_group, Ha|]. intros. bnd; [apply sh_lift, g_group, Hb|]. intros. apply sh_ns, g_carried; assumption.
Qed.
Lemma g_to_poly a1 a2 : same_bignat a1 a2 -> same_poly (to_poly a1) (to_poly a2).
Proof. intros [H _]. exact H. Qed.
Lemma g_verify_mult a1 a2 b1 b2 p1 p2 : same_bignat a1 a2 -> same_bignat b1 b2 -> same_bignat p1 p2 ->
  sh any (verify_mult a1 b1 p1) (verify_mult a2 b2 p2).
Proof.
  intros Ha Hb Hp. unfold verify_mult. do 2 (bnd; [apply sh_lift, so_width; assumption|]; intros ? ? <-). cbv zeta.
  bnd; [apply sh_ns, g_product; apply g_to_poly; assumption|]. intros q1 q2 Hq.
  pose proof Ha as [La Pa]. pose proof Hb as [Lb Pb]. rewrite Pa, Pb. apply sh_ns, g_regroup; [apply g_from_poly|]; assumption.
Qed.
Lemma g_divides a1 a2 b1 b2 : same_bignat a1 a2 -> same_bignat b1 b2 -> sh any (divides a1 b1) (divides a2 b2).
Proof.
  intros Ha Hb. unfold divides. bnd; [apply sh_lift, so_width; assumption|]; intros ? ? <-.
  pose proof Hb as [Lb Pb]. rewrite Pb. bnd; [apply sh_ns, g_alloc_nat|]. intros f1 f2 Hf.
  bnd; [apply sh_ns, g_wf, Hf|]. intros _ _ _. apply sh_ns, g_verify_mult; assumption.
Qed.
Lemma g_shift b1 b2 c : same_bignat b1 b2 -> same_outcome same_bignat (shift b1 c) (shift b2 c).
Proof.
  intros [Hl Hp]. unfold shift. rewrite Hl, Hp. destruct (limbs b2); [apply so_panic|].
  eapply so_bind; [apply so_any|]. intros v1 v2 _. cbv zeta. apply so_if; [|apply so_panic]. apply so_ok. split; reflexivity.
Qed.
Lemma g_scale b1 b2 c : same_bignat b1 b2 -> same_outcome same_bignat (scale b1 c) (scale b2 c).
Proof.
  intros [Hl Hp]. unfold scale. rewrite Hl, Hp. apply so_if; [|apply so_panic]. apply so_ok. split; reflexivity.
Qed.
Lemma g_add a1 a2 b1 b2 : same_bignat a1 a2 -> same_bignat b1 b2 -> same_outcome same_bignat (add a1 b1) (add a2 b2).
Proof.
  intros Ha Hb. unfold add. eapply so_bind; [apply so_width; assumption|]. intros w ? <-.
  destruct Ha as [Ha Pa], Hb as [Hb Pb]. rewrite Ha, Hb, Pa, Pb. cbv zeta.
  eapply so_bind; [apply so_eq|]. intros ls ? <-. eapply so_bind; [apply so_any|]. intros ? ? _. apply so_ok. split; reflexivity.
Qed.
Lemma g_sub a1 a2 b1 b2 : same_bignat a1 a2 -> same_bignat b1 b2 -> sh same_bignat (sub a1 b1) (sub a2 b2).
Proof.
  intros Ha Hb. unfold sub. pose proof Ha as [La Pa]. rewrite Pa. bnd; [apply sh_ns, g_alloc_nat|]. intros d1 d2 Hd.
  bnd; [apply sh_lift, g_add; assumption|]. intros s1 s2 Hs. bnd; [apply sh_ns, g_regroup; assumption|]. intros _ _ _. exact Hd.
Qed.
Lemma g_mult a1 a2 b1 b2 : same_bignat a1 a2 -> same_bignat b1 b2 -> sh same_bignat (mult a1 b1) (mult a2 b2).
Proof.
  intros Ha Hb. unfold mult. bnd; [apply sh_lift, so_width; assumption|]; intros ? ? <-. cbv zeta.
  pose proof Ha as [La Pa]. pose proof Hb as [Lb Pb]. rewrite Pa, Pb. bnd; [apply sh_ns, g_alloc_nat|]. intros d1 d2 Hd.
  assert (Hd' : same_bignat (if ((0 <? min_bits (bparams a2))%nat && (0 <? min_bits (bparams b2))%nat)%bool
      then set_min_bits d1 (min_bits (bparams a2) + min_bits (bparams b2) - 1) else d1)
    (if ((0 <? min_bits (bparams a2))%nat && (0 <? min_bits (bparams b2))%nat)%bool
      then set_min_bits d2 (min_bits (bparams a2) + min_bits (bparams b2) - 1) else d2))
    by (destruct (_ && _)%bool; [apply g_set_min|]; assumption).
  bnd; [apply sh_ns, g_wf, Hd'|]. intros _ _ _. bnd; [apply sh_ns, g_verify_mult; assumption|]. intros _ _ _. exact Hd'.
Qed.
Lemma g_left a1 a2 b1 b2 : same_bignat a1 a2 -> same_bignat b1 b2 -> left_max_word a1 b1 = left_max_word a2 b2.
Proof. intros [Ha Pa] [Hb Pb]. unfold left_max_word. rewrite Ha, Hb, Pa, Pb. reflexivity. Qed.
Lemma g_right a1 a2 b1 b2 c1 c2 : same_bignat a1 a2 -> same_bignat b1 b2 -> same_bignat c1 c2 -> right_max_word a1 b1 c1 = right_max_word a2 b2 c2.
Proof. intros [Ha Pa] [Hb Pb] [Hc Pc]. unfold right_max_word. rewrite Ha, Hb, Pa, Pb, Pc. reflexivity. Qed.
Lemma g_product_mod a1 a2 b1 b2 m1 m2 r1 r2 : same_bignat a1 a2 -> same_bignat b1 b2 -> same_bignat m1 m2 -> same_bignat r1 r2 ->
  sh same_bignat (assert_product_mod a1 b1 m1 r1) (assert_product_mod a2 b2 m2 r2).
Proof.
  intros Ha Hb Hm Hr. unfold assert_product_mod. do 3 (bnd; [apply sh_lift, so_width; assumption|]; intros ? ? <-). cbv zeta.
  rewrite (g_left _ _ _ _ Ha Hb).
  pose proof Ha as [La Pa]. pose proof Hb as [Lb Pb]. rewrite Pa, La, Lb.
  bnd; [apply sh_ns, g_alloc_nat|]. intros q1 q2 Hq. bnd; [apply sh_ns, g_wf, Hq|]. intros _ _ _.
  bnd; [apply sh_ns, g_product; apply g_to_poly; assumption|]. intros.
  bnd; [apply sh_ns, g_product; apply g_to_poly; assumption|]. intros. rewrite (g_right _ _ _ _ _ _ Hq Hm Hr).
  bnd; [apply sh_ns, g_regroup; apply g_from_poly; [assumption|apply g_poly_sum; [assumption|apply g_to_poly; assumption]]|].
  intros _ _ _. exact Hq.
Qed.
Lemma g_nbits a1 a2 : same_bignat a1 a2 -> n_bits a1 = n_bits a2.
Proof. intros [Ha Pa]. unfold n_bits. rewrite Pa. reflexivity. Qed.
Lemma g_mult_mod a1 a2 b1 b2 m1 m2 : same_bignat a1 a2 -> same_bignat b1 b2 -> same_bignat m1 m2 ->
  sh (fun p q => same_bignat (fst p) (fst q) /\ same_bignat (snd p) (snd q)) (mult_mod a1 b1 m1) (mult_mod a2 b2 m2).
Proof.
  intros Ha Hb Hm. unfold mult_mod. bnd; [apply sh_lift, so_width; assumption|]; intros ? ? <-. cbv zeta.
  rewrite (g_left _ _ _ _ Ha Hb), (g_nbits _ _ Ha), (g_nbits _ _ Hb).
  do 2 (bnd; [apply sh_lift, so_eq|]; intros ? ? <-). pose proof Hm as [Lm Pm]. rewrite Lm, Pm.
  bnd; [apply sh_lift, so_eq|]; intros ? ? <-.
  bnd; [apply sh_ns, g_alloc_nat|]. intros q1 q2 Hq. bnd; [apply sh_ns, g_wf, Hq|]. intros _ _ _.
  bnd; [apply sh_ns, g_alloc_nat|]. intros r1 r2 Hr. bnd; [apply sh_ns, g_wf, Hr|]. intros _ _ _.
  bnd; [apply sh_ns, g_product; apply g_to_poly; assumption|]. intros.
  bnd; [apply sh_ns, g_product; apply g_to_poly; assumption|]. intros. rewrite (g_right _ _ _ _ _ _ Hq Hm Hr).
  bnd; [apply sh_ns, g_regroup; apply g_from_poly; [assumption|apply g_poly_sum; [assumption|apply g_to_poly; assumption]]|].
  intros _ _ _. split; assumption.
Qed.
Lemma g_red_mod a1 a2 m1 m2 : same_bignat a1 a2 -> same_bignat m1 m2 -> sh same_bignat (red_mod a1 m1) (red_mod a2 m2).
Proof.
  intros Ha Hm. unfold red_mod. bnd; [apply sh_lift, so_width; assumption|]; intros ? ? <-. cbv zeta.
  rewrite (g_nbits _ _ Ha). bnd; [apply sh_lift, so_eq|]; intros ? ? <-. pose proof Hm as [Lm Pm]. rewrite Lm, Pm.
  bnd; [apply sh_lift, so_eq|]; intros ? ? <-.
  bnd; [apply sh_ns, g_alloc_nat|]. intros q1 q2 Hq. bnd; [apply sh_ns, g_wf, Hq|]. intros _ _ _.
  bnd; [apply sh_ns, g_alloc_nat|]. intros r1 r2 Hr. bnd; [apply sh_ns, g_wf, Hr|]. intros _ _ _.
  bnd; [apply sh_ns, g_product; apply g_to_poly; assumption|]. intros. rewrite (g_right _ _ _ _ _ _ Hq Hm Hr).
  bnd; [apply sh_ns, g_regroup; [assumption|apply g_from_poly, g_poly_sum; [assumption|apply g_to_poly; assumption]]|].
  intros _ _ _. assumption.
Qed.
Lemma g_with_n b1 b2 n : same_bignat b1 b2 -> same_outcome same_bignat (with_n_limbs b1 n) (with_n_limbs b2 n).
Proof.
  intros H. pose proof H as [Hl Hp]. unfold with_n_limbs. rewrite Hl, Hp. apply so_if; [apply so_panic|].
  apply so_if; [apply so_ok, H|]. apply so_ok. split; reflexivity.
Qed.

(** ** gadget *)
Lemma g_gadget_inputize b1 b2 : same_bignat b1 b2 -> sh any (gadget_inputize b1) (gadget_inputize b2).
Proof.
  intros [Hl Hp]. unfold gadget_inputize. rewrite <- Hl. eapply sh_iterM; [apply F2_refl|]. intros p ? <-.
  apply sh_ns. bnd; [al|]. intros [x v] [y u]; cbn [fst]; intros ->. apply sh_enforce; reflexivity.
Qed.
Lemma g_as_nums b1 b2 : same_bignat b1 b2 -> sh (Forall2 same_an) (as_nums b1) (as_nums b2).
Proof.
  intros [Hl Hp]. unfold as_nums. rewrite <- Hl. eapply sh_mapM; [apply F2_refl|]. intros p ? <-.
  bnd; [apply sh_ns, g_an_alloc|]. intros x y Hxy. rewrite Hxy. bnd; [apply sh_enforce; reflexivity|]. intros _ _ _. exact Hxy.
Qed.
Lemma g_mux_wires s1 s2 w0 w1 wo : same_bit s1 s2 -> sh any (mux_wires s1 w0 w1 wo) (mux_wires s2 w0 w1 wo).
Proof.
  intros H. unfold mux_wires. eapply sh_iterM; [apply F2_refl|]. intros [i [[a b] c]] ? <-. rewrite H. apply sh_enforce; reflexivity.
Qed.
Lemma g_mux_default s1 s2 a1 a2 b1 b2 : same_bit s1 s2 -> same_bignat a1 a2 -> same_bignat b1 b2 -> sh same_bignat (mux_default s1 a1 b1) (mux_default s2 a2 b2).
Proof.
  intros Hs Ha Hb. unfold mux_default. pose proof Ha as [La Pa]. pose proof Hb as [Lb Pb]. rewrite La, Lb, Pa.
  destruct (negb _); [apply sh_fail_l|]. bnd; [apply sh_ns; unfold gadget_alloc; apply g_alloc_nat|]. intros o1 o2 Ho.
  pose proof Ho as [Lo Po]. rewrite Lo. destruct (negb _); [apply sh_fail_l|].
  bnd; [apply g_mux_wires, Hs|]. intros _ _ _. exact Ho.
Qed.
Lemma g_mux s1 s2 a1 a2 b1 b2 : same_bit s1 s2 -> same_bignat a1 a2 -> same_bignat b1 b2 -> sh same_bignat (mux s1 a1 b1) (mux s2 a2 b2).
Proof.
  intros Hs Ha Hb. unfold mux. cbv zeta. pose proof Ha as [_ Pa]. pose proof Hb as [_ Pb]. rewrite Pa, Pb.
  bnd; [apply sh_lift, g_with_n, Ha|]. intros x1 x2 [Lx Px]. bnd; [apply sh_lift, g_with_n, Hb|]. intros y1 y2 [Ly Py].
  rewrite Lx, Ly, Px, Py. destruct (_ || _)%bool; [apply sh_fail_l|].
  bnd; [apply sh_ns; unfold gadget_alloc; apply g_alloc_nat|]. intros o1 o2 Ho. pose proof Ho as [Lo _]. rewrite Lo.
  bnd; [apply g_mux_wires, Hs|]. intros _ _ _. exact Ho.
Qed.
Lemma g_mux_tree l1 l2 : Forall2 same_bit l1 l2 -> forall i1 i2, Forall2 same_bignat i1 i2 -> sh same_bignat (mux_tree l1 i1) (mux_tree l2 i2).
Proof.
  induction 1 as [|s t l1 l2 Hs Hl IH]; intros i1 i2 Hi; cbn [mux_tree].
  - destruct Hi as [|a b ? ? Hab Hi]; [apply sh_fail_l|]. destruct Hi; [exact Hab|apply sh_fail_l].
  - rewrite (F2_len _ _ _ Hi). destruct (negb _); [apply sh_fail_l|]. cbv zeta.
    bnd; [apply sh_ns, IH, F2_firstn, Hi|]. intros. bnd; [apply sh_ns, IH, F2_skipn, Hi|]. intros. apply sh_ns, g_mux; assumption.
Qed.
Lemma g_bit_not s1 s2 : same_bit s1 s2 -> same_bit (bit_not s1) (bit_not s2).
Proof. unfold same_bit; cbn. congruence. Qed.
Lemma g_switch s1 s2 a1 a2 b1 b2 : same_bit s1 s2 -> same_bignat a1 a2 -> same_bignat b1 b2 ->
  sh (fun p q => same_bignat (fst p) (fst q) /\ same_bignat (snd p) (snd q)) (switch s1 a1 b1) (switch s2 a2 b2).
Proof.
  intros Hs Ha Hb. unfold switch. bnd; [apply sh_ns, g_mux; assumption|]. intros. bnd; [apply sh_ns, g_mux; [apply g_bit_not|..]; assumption|].
  intros. split; assumption.
Qed.
Lemma g_assert_equal a1 a2 b1 b2 : same_bignat a1 a2 -> same_bignat b1 b2 -> sh any (assert_equal a1 b1) (assert_equal a2 b2).
Proof.
  intros [Ha _] [Hb _]. unfold assert_equal. rewrite Ha, Hb. destruct (negb _); [apply sh_fail_l|].
  eapply sh_iterM; [apply F2_refl|]; intros i ? <-; apply sh_enforce; reflexivity.
Qed.
Lemma g_bn_min a1 a2 b1 b2 : same_bignat a1 a2 -> same_bignat b1 b2 -> sh same_bignat (bn_min a1 b1) (bn_min a2 b2).
Proof.
  intros Ha Hb. unfold bn_min. bnd; [apply sh_ns, g_bit_alloc|]. intros s1 s2 Hs.
  bnd; [apply sh_ns, g_switch; assumption|]. intros [x1 y1] [x2 y2]; cbn [fst snd]; intros [Hx Hy].
  bnd; [apply sh_ns, g_sub; assumption|]. intros _ _ _. exact Hx.
Qed.

(** ** median *)
Lemma g_less_than a1 a2 b1 b2 n : sh same_bool (less_than a1 b1 n) (less_than a2 b2 n).
Proof.
  unfold less_than. bnd; [apply sh_unwrap, sh_ns, g_an_alloc|]. intros z1 z2 Hz.
  bnd; [apply sh_unwrap, sh_ns, g_an_alloc|]. intros. apply sh_ns, g_equals; assumption.
Qed.
Lemma g_leq a1 a2 b1 b2 n : sh same_bool (leq a1 b1 n) (leq a2 b2 n).
Proof.
  unfold leq. bnd; [apply sh_unwrap, sh_ns, g_an_alloc|]. intros z1 z2 Hz.
  bnd; [apply sh_unwrap, sh_ns, g_an_alloc|]. intros. apply sh_ns, g_equals; assumption.
Qed.
Lemma g_median_step f1 f2 s1 s2 p1 p2 : same_an f1 f2 -> same_an (snd s1) (snd s2) -> (fst p1 = fst p2 /\ same_an (snd p1) (snd p2)) ->
  sh (fun s t : bp_num * allocated_num => same_an (snd s) (snd t)) (median_step f1 s1 p1) (median_step f2 s2 p2).
Proof.
  destruct s1 as [n1 d1], s2 as [n2 d2], p1 as [i1 t1], p2 as [i2 t2]; cbn [fst snd]. intros Hf Hd [-> Ht]. unfold median_step.
  bnd; [apply sh_unwrap, sh_ns, g_equals; assumption|]. intros e1 e2 He. cbv zeta.
  bnd; [apply sh_unwrap, sh_ns, g_less_than|]. intros l1 l2 Hl.
  bnd; [apply sh_unwrap, sh_ns, g_an_alloc|]. intros x1 x2 Hx. bnd; [apply sh_lift_any|]. intros v1 v2 _.
  bnd; [apply sh_unwrap, sh_ns, g_ab_alloc|]. intros y1 y2 Hy. bnd; [apply sh_unwrap, sh_ns, g_an_alloc|]. intros z1 z2 Hz.
  rewrite Hy, Hz, Hx. bnd; [apply sh_enforce; reflexivity|]. intros _ _ _.
  bnd; [apply sh_unwrap, sh_ns, g_an_add; assumption|]. intros. cbn. assumption.
Qed.
Lemma F2_any {A B} (l1 : list A) (l2 : list B) : List.length l1 = List.length l2 -> Forall2 any l1 l2.
Proof. revert l2. induction l1; destruct l2; cbn; intros H; try discriminate; constructor; auto. Qed.
Lemma g_median ts1 ts2 m1 m2 : List.length ts1 = List.length ts2 -> sh same_bool (verify_median_timestamp ts1 m1) (verify_median_timestamp ts2 m2).
Proof.
  intros HL. unfold verify_median_timestamp. bnd; [apply sh_unwrap, sh_ns, g_an_alloc|]. intros f1 f2 Hf. rewrite HL.
  bnd; [eapply sh_mapM with (RB := same_an); [apply F2_seq with (R := any); [apply F2_any, HL|auto]|]|].
  { intros [i x] [j y]; cbn [fst snd]. intros [-> _]. apply sh_unwrap, sh_ns, g_an_alloc. }
  intros a1 a2 Ha. bnd; [apply sh_unwrap, sh_ns, g_an_alloc|]. intros s1 s2 Hs.
  bnd; [eapply sh_foldM with (RS := fun s t : bp_num * allocated_num => same_an (snd s) (snd t));
    [rewrite <- (F2_len _ _ _ Ha); apply F2_seq; [exact Ha|reflexivity]| |]|].
  { intros s t p q Hst Hpq. apply g_median_step; assumption. }
  { exact Hs. }
  intros [o1 d1] [o2 d2]; cbn [snd]; intros Hd.
  bnd; [apply sh_unwrap, sh_ns, g_an_alloc|]. intros c1 c2 Hc. bnd; [apply sh_unwrap, sh_ns, g_less_than|]. intros p1 p2 Hp.
  bnd; [apply sh_unwrap, sh_ns, g_an_alloc|]. intros n1 n2 Hn. rewrite Hd, Hn. bnd; [apply sh_enforce; reflexivity|]. intros _ _ _.
  bnd; [apply sh_unwrap, sh_ns, g_cond_rev; assumption|]. intros [x1 ?] [x2 ?]; cbn [fst snd]; intros [Hx _].
  bnd; [apply sh_unwrap, sh_ns, g_an_alloc|]. intros k1 k2 Hk. bnd; [apply sh_unwrap, sh_ns, g_an_add; assumption|]. intros l1 l2 Hl.
  bnd; [apply sh_unwrap, sh_ns, g_an_alloc|]. intros. apply sh_ns, g_leq.
Qed.

(** ** difficulty update, hash comparison, previous hash *)
Lemma g_num_u nm w1 w2 : sh same_num (num_u nm w1) (num_u nm w2).
Proof. unfold num_u. apply sh_unwrap, sh_ns, g_num_alloc. Qed.
Lemma g_an_u nm w1 w2 : sh same_an (an_u nm w1) (an_u nm w2).
Proof. unfold an_u. apply sh_unwrap, sh_ns, g_an_alloc. Qed.
Lemma g_bignat_u nm n1 n2 w k : same_num n1 n2 -> sh same_bignat (bignat_u nm n1 w k) (bignat_u nm n2 w k).
Proof. intros H. unfold bignat_u. apply sh_unwrap, sh_ns, g_from_num, H. Qed.
Lemma g_lt_u nm a1 a2 b1 b2 n : sh any (lt_u nm a1 b1 n) (lt_u nm a2 b2 n).
Proof. unfold lt_u. bnd; [apply sh_unwrap, sh_ns, g_less_than|]. intros. apply sh_lift_any. Qed.
Lemma g_assert b1 b2 : sh any (assert b1) (assert b2).
Proof. destruct b1, b2; exact I. Qed.
Lemma g_verify_difficulty a1 b1 c1 d1 e1 a2 b2 c2 d2 e2 :
  sh any (verify_difficulty_update a1 b1 c1 d1 e1) (verify_difficulty_update a2 b2 c2 d2 e2).
Proof.
  unfold verify_difficulty_update.
  bnd; [apply g_num_u|]. intros. bnd; [apply g_bignat_u; assumption|]. intros.
  do 4 (bnd; [apply g_num_u|]; intros). do 2 (bnd; [apply g_bignat_u; eassumption|]; intros).
  bnd; [apply sh_lift, so_unwrap_res, g_concat; eassumption|]. intros.
  do 2 (bnd; [apply g_bignat_u; eassumption|]; intros). bnd; [apply sh_lift, so_unwrap_res, g_concat; eassumption|]. intros.
  do 3 (bnd; [apply g_an_u|]; intros). do 2 (bnd; [apply g_lt_u|]; intros). bnd; [apply g_assert|]. intros.
  bnd; [apply g_num_u|]. intros. bnd; [apply g_bignat_u; eassumption|]. intros.
  bnd; [apply sh_unwrap, sh_ns, g_mult_mod; eassumption|]. intros [t1 ?] [t2 ?]; cbn [fst snd]; intros [Ht _].
  apply sh_unwrap, sh_ns, g_equal; assumption.
Qed.
Lemma g_calculate p1 p2 s1 s2 : same_an p1 p2 -> same_an s1 s2 ->
  sh same_bignat (calculate_difficulty_update p1 s1) (calculate_difficulty_update p2 s2).
Proof.
  intros Hp Hs.
  assert (Hp' : same_num (num_from p1) (num_from p2)) by (unfold same_num, num_from; cbn; congruence).
  assert (Hs' : same_num (num_from s1) (num_from s2)) by (unfold same_num, num_from; cbn; congruence).
  unfold calculate_difficulty_update.
  do 2 (bnd; [apply g_bignat_u; assumption|]; intros).
  do 2 (bnd; [apply g_an_u|]; intros). do 2 (bnd; [apply g_lt_u|]; intros). bnd; [apply g_assert|]. intros.
  bnd; [apply g_num_u|]. intros. bnd; [apply g_bignat_u; eassumption|]. intros.
  bnd; [apply sh_unwrap, sh_ns, g_mult_mod; eassumption|]. intros [t1 ?] [t2 ?]; cbn [fst snd]; intros [Ht _]. exact Ht.
Qed.
Lemma g_verify_hash a1 b1 c1 d1 a2 b2 c2 d2 : sh same_bool (verify_current_hash a1 b1 c1 d1) (verify_current_hash a2 b2 c2 d2).
Proof.
  unfold verify_current_hash. do 4 (bnd; [apply g_an_u|]; intros).
  bnd; [apply sh_unwrap, sh_ns, g_less_than|]. intros. bnd; [apply sh_unwrap, sh_ns, g_equals; assumption|]. intros.
  bnd; [apply sh_unwrap, sh_ns, g_less_than|]. intros. bnd; [apply sh_unwrap, sh_ns, g_bool_and; assumption|]. intros.
  apply sh_ns, g_bool_or; assumption.
Qed.
Lemma g_words pre l1 l2 : List.length l1 = List.length l2 -> sh (Forall2 same_bool) (words_to_bits pre l1) (words_to_bits pre l2).
Proof.
  intros H. unfold words_to_bits. rewrite H.
  bnd; [eapply sh_mapM with (RB := Forall2 same_bool); [apply F2_seq with (R := any); [apply F2_any, H|auto]|]|].
  { intros [i x] [j y]; cbn [fst snd]. intros [-> _]. bnd; [apply sh_unwrap, sh_ns, g_u64|]. intros. cbn. apply F2_rev. assumption. }
  intros. cbn. apply F2_concat. assumption.
Qed.
Lemma g_enforce_equal a1 a2 b1 b2 nm : same_bool a1 a2 -> same_bool b1 b2 ->
  sh any (ignore_err (ns nm (bool_enforce_equal a1 b1))) (ignore_err (ns nm (bool_enforce_equal a2 b2))).
Proof.
  intros Ha Hb.
  assert (K : bool_enforce_equal a1 b1 = bool_enforce_equal a2 b2).
  { destruct a1 as [x1|x1|[|]], a2 as [x2|x2|[|]]; cbn in Ha; try contradiction; try discriminate;
    destruct b1 as [y1|y1|[|]], b2 as [y2|y2|[|]]; cbn in Hb; try contradiction; try discriminate;
    unfold bool_enforce_equal; cbn [bool_lc]; rewrite ?Ha, ?Hb; reflexivity. }
  rewrite K. clear. unfold bool_enforce_equal, enforce, ns.
  destruct a2 as [x|x|[|]], b2 as [y|y|[|]]; cbn; auto.
Qed.
Lemma g_check_prev p1 p2 h1 h2 : List.length p1 = List.length p2 -> List.length h1 = List.length h2 ->
  sh any (check_prev_hash p1 h1) (check_prev_hash p2 h2).
Proof.
  intros Hp Hh. unfold check_prev_hash. bnd; [apply g_words, Hh|]. intros x1 x2 Hx. bnd; [apply g_words, Hp|]. intros.
  bnd; [apply sh_unwrap, sh_ns, g_sha; eassumption|]. intros.
  bnd; [apply sh_unwrap, sh_ns, g_sha; eassumption|]. intros o1 o2 Ho.
  pose proof (F2_combine _ _ _ _ _ _ Hx Ho) as HC. rewrite <- (F2_len _ _ _ HC).
  eapply sh_iterM; [apply F2_seq; [exact HC|reflexivity]|]. intros [i [u1 u2]] [j [v1 v2]]; cbn [fst snd]; intros [-> [Ha Hb]].
  apply g_enforce_equal; assumption.
Qed.

(** ** header step *)
Lemma g_assert_true a b : sh any (assert_true a) (assert_true b).
Proof. unfold assert_true. bnd; [apply sh_lift_any|]. intros. apply g_assert. Qed.
Lemma g_stage1 h1 h2 z1 z2 : Forall2 same_an z1 z2 -> sh any (stage_prev_hash h1 z1) (stage_prev_hash h2 z2).
Proof.
  intros Hz. unfold stage_prev_hash.
  bnd; [apply sh_lift with (R := Forall2 any); eapply so_rmapM; [apply F2_refl|intros; apply so_any]|]. intros w1 w2 Hw.
  bnd; [apply g_words, (F2_len _ _ _ Hw)|]. intros. bnd; [apply g_an_u|]. intros.
  bnd; [apply sh_lift, so_idx, Hz|]. intros. bnd; [apply sh_unwrap, sh_ns, g_equals; assumption|]. intros.
  bnd; [apply g_assert_true|]. intros. exact I.
Qed.
Lemma g_stage2 h1 h2 : List.length h1 = List.length h2 ->
  sh (fun p q => same_an (snd (fst p)) (snd (fst q)) /\ same_an (snd p) (snd q)) (stage_pow h1) (stage_pow h2).
Proof.
  intros H. unfold stage_pow. do 3 (bnd; [apply sh_lift_any|]; intros ? ? _).
  bnd; [apply g_an_u|]. intros. bnd; [apply g_words, H|]. intros.
  bnd; [apply sh_unwrap, sh_ns, g_sha; eassumption|]. intros.
  bnd; [apply sh_unwrap, sh_ns, g_sha; eassumption|]. intros. bnd; [apply g_an_u|]. intros.
  bnd; [apply sh_unwrap, sh_ns, g_less_than|]. intros.
  bnd; [apply g_assert_true|]. intros. cbn. auto.
Qed.
Lemma insert_length x l : List.length (insert x l) = S (List.length l).
Proof. induction l as [|y l IH]; cbn; auto. destruct (_ <=? _)%Z; cbn; auto. Qed.
Lemma sort_length l : List.length (sort l) = List.length l.
Proof. induction l; cbn; auto. rewrite insert_length. auto. Qed.
Lemma g_stage3 h1 h2 z1 z2 : sh same_an (stage_time h1 z1) (stage_time h2 z2).
Proof.
  unfold stage_time.
  bnd; [apply sh_lift with (R := Forall2 any); eapply so_rmapM; [apply F2_refl|intros; apply so_any]|]. intros t1 t2 Ht.
  bnd; [apply sh_lift with (R := fun p q : Z * list Z => List.length (snd p) = List.length (snd q))|].
  { unfold compute_median_timestamp. cbv zeta. eapply so_bind; [apply so_any|]. intros. apply so_ok. cbn. rewrite !sort_length. apply (F2_len _ _ _ Ht). }
  intros [m1 u1] [m2 u2]; cbn [snd]; intros Hu.
  bnd; [apply sh_unwrap, sh_ns, g_median, Hu|]. intros. bnd; [apply g_assert_true|]. intros.
  do 3 (bnd; [apply sh_lift_any|]; intros ? ? _). bnd; [apply g_an_u|]. intros. bnd; [apply g_an_u|]. intros.
  bnd; [apply sh_unwrap, sh_ns, g_less_than|]. intros. bnd; [apply g_assert_true|]. intros. cbn. assumption.
Qed.
Lemma g_stage4 t1 t2 : same_an t1 t2 -> sh same_an (stage_work t1) (stage_work t2).
Proof.
  intros H. unfold stage_work. bnd; [apply g_an_u|]. intros m1 m2 Hm. bnd; [apply g_an_u|]. intros b1 b2 Hb.
  rewrite H, Hm, Hb. bnd; [apply sh_enforce; reflexivity|]. intros _ _ _. exact Hb.
Qed.
Lemma g_stage5 q1 q2 t1 t2 z1 z2 : same_an t1 t2 -> Forall2 same_an z1 z2 ->
  sh (fun p q => same_an (snd p) (snd q)) (stage_target_update q1 t1 z1) (stage_target_update q2 t2 z2).
Proof.
  intros Ht Hz. unfold stage_target_update. bnd; [apply sh_lift, so_idx, Hz|]. intros a1 a2 Ha.
  bnd; [apply sh_lift, so_idx, Hz|]. intros b1 b2 Hb. rewrite Ht, Ha, Hb. bnd; [apply sh_enforce; reflexivity|]. intros _ _ _.
  bnd; [apply sh_lift, so_idx, Hz|]. intros c1 c2 Hc. bnd; [apply sh_unwrap, sh_ns, g_calculate; assumption|]. intros.
  bnd; [apply sh_lift_any|]. intros ? ? _. cbv zeta. bnd; [apply g_an_u|]. intros d1 d2 Hd.
  bnd; [apply sh_ns, g_an_alloc|]. intros e1 e2 He. bnd; [apply sh_ns, g_an_alloc|]. intros f1 f2 Hf.
  rewrite He, Hf, Hd. do 3 (bnd; [apply sh_enforce; reflexivity|]; intros _ _ _). cbn. exact Hc.
Qed.
Lemma so_vec_set {A B} (R : A -> B -> Prop) i a b l1 l2 : Forall2 R l1 l2 -> R a b -> same_outcome (Forall2 R) (vec_set i a l1) (vec_set i b l2).
Proof.
  intros H Hab. revert i. induction H; intros i; [destruct i; apply so_panic|]. destruct i; cbn.
  - apply so_ok. constructor; assumption.
  - eapply so_bind; [apply IHForall2|]. intros. apply so_ok. constructor; assumption.
Qed.
Lemma g_out_copy nm i a1 a2 o1 o2 : same_an a1 a2 -> Forall2 same_an o1 o2 -> sh (Forall2 same_an) (out_copy nm i a1 o1) (out_copy nm i a2 o2).
Proof.
  intros Ha Ho. unfold out_copy. bnd; [apply sh_lift, so_vec_set; eassumption|]. intros p1 p2 Hp.
  bnd; [apply sh_lift, so_idx, Hp|]. intros x1 x2 Hx. rewrite Hx, Ha. bnd; [apply sh_enforce; reflexivity|]. intros _ _ _. exact Hp.
Qed.
Lemma g_stage6 o1 o2 z1 z2 a1 a2 b1 b2 c1 c2 d1 d2 e1 e2 : Forall2 same_an o1 o2 -> Forall2 same_an z1 z2 ->
  same_an a1 a2 -> same_an b1 b2 -> same_an c1 c2 -> same_an d1 d2 -> same_an e1 e2 ->
  sh (Forall2 same_an) (stage_out o1 z1 a1 b1 c1 d1 e1) (stage_out o2 z2 a2 b2 c2 d2 e2).
Proof.
  intros Ho Hz Ha Hb Hc Hd He. unfold stage_out. bnd; [apply g_out_copy; eassumption|]. intros.
  bnd; [eapply sh_foldM with (RA := eq) (RS := Forall2 same_an); [apply F2_refl| |eassumption]|].
  { intros s t i ? Hs <-. bnd; [apply sh_lift, so_idx, Hz|]. intros. apply g_out_copy; assumption. }
  intros. do 3 (bnd; [apply g_out_copy; eassumption|]; intros).
  bnd; [apply sh_lift, so_idx, Hz|]. intros x1 x2 Hx. bnd; [apply g_an_u|]. intros y1 y2 Hy.
  bnd; [apply sh_lift, so_vec_set; eassumption|]. intros. rewrite Hx, Hy. bnd; [apply sh_enforce; reflexivity|]. intros _ _ _.
  bnd; [apply sh_lift, so_idx, Hz|]. intros u1 u2 Hu. bnd; [apply g_an_u|]. intros v1 v2 Hv.
  bnd; [apply sh_lift, so_vec_set; eassumption|]. intros. rewrite He, Hu, Hv. bnd; [apply sh_enforce; reflexivity|]. intros _ _ _.
  cbn. assumption.
Qed.
Lemma g_synthesize o1 o2 h1 h2 z1 z2 : Forall2 same_an o1 o2 -> List.length h1 = List.length h2 -> Forall2 same_an z1 z2 ->
  sh (Forall2 same_an) (synthesize_with o1 h1 z1) (synthesize_with o2 h2 z2).
Proof.
  intros Ho Hh Hz. unfold synthesize_with. bnd; [apply g_stage1, Hz|]. intros ? ? _.
  bnd; [apply g_stage2, Hh|]. intros [[q1 t1] c1] [[q2 t2] c2]; cbn [fst snd]; intros [Ht Hc].
  bnd; [apply g_stage3|]. intros. bnd; [apply g_stage4, Ht|]. intros.
  bnd; [apply g_stage5; eassumption|]. intros [[? ?] s1] [[? ?] s2]; cbn [snd]; intros Hs.
  apply g_stage6; assumption.
Qed.

End Shape.
