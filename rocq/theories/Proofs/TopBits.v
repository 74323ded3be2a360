(** Final forms of the lemmas about bits, numbers and bit vectors. *)
From Coq Require Import ZArith Bool List Lia Setoid Morphisms ZifyBool ZifyNat.
From Verif.Model Require Import Base CS Bellpepper Util Poly Bignat Fields.
From Verif.Spec Require Import Spec SpecBits.
From Verif.Proofs Require Import Field Arith Convert Wp Lc BitNum.
Import ListNotations.
Local Open Scope Z_scope.

Section Top.
Context {E : Env} {W : Wf E}.

Lemma carries_eqp s l v rho : carries s l v -> agree s rho -> rho ONE = 1 -> eqp (lc_eval rho l) v.
Proof. intros H Ha H1. rewrite <- (H rho Ha H1). symmetry. apply eqp_feval. Qed.
Lemma carries_for_eqp rho0 s l v rho :
  carries_for rho0 s l v -> same_on s rho rho0 -> rho ONE = 1 -> eqp (lc_eval rho l) v.
Proof. intros H Ha H1. rewrite <- (H rho Ha H1). symmetry. apply eqp_feval. Qed.
Lemma carries_canon s l v : carries s l v -> good s -> canon v.
Proof.
  intros H G. pose proof (agree_asg s) as Ha. rewrite <- (H _ Ha (proj1 (G _ Ha))). apply fmk_canon.
Qed.

Lemma num_at_is_num s n v rho : num_at s n v -> agree s rho -> rho ONE = 1 -> is_num rho n v.
Proof.
  intros (H1 & H2 & H3) Ha H. split; auto. split; auto. eapply carries_eqp; eauto.
Qed.

Lemma wire_bit_feval rho l b : wire_bit rho l b <-> feval rho l = Z.b2z b.
Proof. unfold wire_bit. symmetry. apply feval_eqp, b2z_canon. Qed.

Lemma carries_list s ls vs : (forall rho, agree s rho -> wires rho ls = vs) ->
  Forall2 (carries s) ls vs.
Proof.
  revert vs. induction ls as [|l ls IH]; intros vs H.
  - rewrite <- (H _ (agree_asg s)). constructor.
  - pose proof (H _ (agree_asg s)) as H0. destruct vs as [|v vs]; [discriminate|].
    constructor.
    + intros rho Ha _. specialize (H rho Ha). injection H as H _. exact H.
    + apply IH. intros rho Ha. specialize (H rho Ha). injection H as _ H. exact H.
Qed.

(** ** Bit *)
Lemma top_bit_sound wit v s b s' rho : run wit (bit_alloc v) s = (Ok b, s') -> sat rho s' ->
  feval rho (b_lc b) = 0 \/ feval rho (b_lc b) = 1.
Proof.
  intros Hr Hs. pose proof (swp_run_any _ _ _ _ _ _ _ Hr Hs (bit_alloc_swp rho (proj1 Hs) Any v)) as H.
  cbv beta in H. destruct H as (_ & x & Hx & _). apply wire_bit_feval in Hx. rewrite Hx.
  destruct x; auto.
Qed.

Lemma top_bit_complete v s : good s ->
  exists b s', run true (bit_alloc (Some v)) s = (Ok b, s') /\ good s' /\ bit_at s' b v.
Proof.
  intros G. destruct (hwp_run _ s _ G (fun rho _ one => bit_alloc_hwp rho one v))
    as (b & s' & Hr & Hg & _ & HQ).
  exists b, s'. split; auto. split; auto.
  split; [apply (HQ _ (agree_asg s'))|]. intros rho Ha _. apply wire_bit_feval. now apply HQ.
Qed.

Lemma top_bit_not b rho : rho ONE = 1 ->
  feval rho (b_lc (bit_not b)) = (1 - feval rho (b_lc b)) mod modulus.
Proof.
  intros H. unfold feval, bit_not. cbn [b_lc]. lcs. rewrite H. apply (proj1 (eqp_eq _ _)).
  rewrite eqp_fmk. reflexivity.
Qed.

Lemma top_bit_not_at s b v : bit_at s b v -> bit_at s (bit_not b) (negb v).
Proof.
  intros [H1 H2]. split; [unfold bit_not; simpl; now rewrite H1|].
  intros rho Ha H. apply wire_bit_feval, bit_not_wire; auto. apply wire_bit_feval; auto.
Qed.

Lemma top_bit_constrain wit b v s : exists s', run wit (bit_constrain_value b v) s = (Ok tt, s') /\
  forall rho, sat rho s' <-> sat rho s /\ feval rho (b_lc b) = Z.b2z v.
Proof.
  eexists. split; [reflexivity|]. intros rho. split.
  - intros H. split; [eapply (run_sat wit rho (bit_constrain_value b v)); [reflexivity|exact H]|].
    apply wire_bit_feval.
    apply (swp_run_any wit rho (bit_constrain_value b v) s tt _ _ eq_refl H (bit_constrain_swp rho (proj1 H) Any b v)).
  - intros [Hs H]. apply wire_bit_feval in H.
    apply (awp_run_nil Any wit rho (bit_constrain_value b v) s (fun _ => True) tt); auto.
    unfold bit_constrain_value. astep; auto. destruct v.
    + lcs. rewrite (proj1 Hs). apply (proj2 (eqp_sub_0 _ _)). exact H.
    + exact H.
Qed.

(** ** fits_in_bits *)
Lemma top_fits_sound wit n k s u s' rho : (1 <= k)%nat ->
  run wit (fits_in_bits n k) s = (Ok u, s') -> sat rho s' ->
  0 <= feval rho (n_lc n) < 2 ^ Z.of_nat k.
Proof.
  intros Hk Hr Hs.
  destruct (swp_run_any _ _ _ _ _ _ _ Hr Hs (fits_in_bits_swp rho (proj1 Hs) Any n k)) as (bs & Hl & He).
  rewrite width1_pos in Hl by auto. eapply bits_feval; eauto.
Qed.

Lemma fits_complete n k v s : good s -> num_at s n v -> (k <= NUM_BITS)%nat ->
  v < 2 ^ Z.of_nat (width1 k) ->
  exists s', run true (fits_in_bits n k) s = (Ok tt, s') /\ good s'.
Proof.
  intros G Hn Hk Hv.
  destruct (hwp_run _ s (fun _ _ => True) G (fun rho Ha one =>
     fits_in_bits_hwp rho one n k v (num_at_is_num _ _ _ _ Hn Ha one) Hk Hv))
    as ([] & s' & Hr & Hg & _ & _).
  exists s'. auto.
Qed.

Lemma top_fits_complete n k v s : good s -> num_at s n v -> (1 <= k <= NUM_BITS)%nat ->
  v < 2 ^ Z.of_nat k ->
  exists s', run true (fits_in_bits n k) s = (Ok tt, s') /\ good s'.
Proof. intros G Hn Hk Hv. apply (fits_complete n k v); auto; [lia|]. rewrite width1_pos; auto; lia. Qed.

Lemma fits_exact wit n k v s u s' rho0 : good_for rho0 s -> carries_for rho0 s (n_lc n) v ->
  run wit (fits_in_bits n k) s = (Ok u, s') ->
  ((exists rho, same_on s rho rho0 /\ sat rho s') <-> v < 2 ^ Z.of_nat (width1 k)).
Proof.
  intros G Hn Hr. split.
  - intros (rho & Hso & Hs).
    destruct (swp_run_any _ _ _ _ _ _ _ Hr Hs (fits_in_bits_swp rho (proj1 Hs) Any n k)) as (bs & Hl & He).
    rewrite <- (Hn rho Hso (proj1 Hs)). eapply bits_feval; eauto.
  - intros Hv. pose proof (same_on_refl s rho0) as R. pose proof (G _ R) as G0.
    assert (Hc : canon v) by (rewrite <- (Hn _ R (proj1 G0)); apply fmk_canon).
    destruct (awp_run wit (fits_in_bits n k) s rho0 (fits_aux v k) (fun _ _ => True) u s' G) as (rho' & H1 & H2 & _); auto.
    + intros rho Hso one. apply fits_in_bits_awp; auto; [eapply carries_for_eqp; eauto|destruct Hc; lia|apply md_of_not].
    + exists rho'. split; auto. apply H2, same_on_refl.
Qed.

Lemma top_fits_exact wit n k v s u s' rho0 : (1 <= k)%nat ->
  good_for rho0 s -> carries_for rho0 s (n_lc n) v ->
  run wit (fits_in_bits n k) s = (Ok u, s') ->
  ((exists rho, same_on s rho rho0 /\ sat rho s') <-> v < 2 ^ Z.of_nat k).
Proof. intros Hk G Hn Hr. rewrite <- (width1_pos k Hk). now apply (fits_exact wit n k v s u s' rho0). Qed.

Lemma top_fits_zero wit n v s u s' rho0 :
  good_for rho0 s -> carries_for rho0 s (n_lc n) v ->
  run wit (fits_in_bits n 0) s = (Ok u, s') ->
  ((exists rho, same_on s rho rho0 /\ sat rho s') <-> v = 0 \/ v = 1).
Proof.
  intros G Hn Hr. rewrite (fits_exact wit n 0 v s u s' rho0) by auto.
  change (2 ^ Z.of_nat (width1 0)) with 2.
  pose proof (same_on_refl s rho0) as R. pose proof (G _ R) as G0.
  assert (Hc : canon v) by (rewrite <- (Hn _ R (proj1 G0)); apply fmk_canon).
  destruct Hc. lia.
Qed.

Lemma top_fits_zero_one wit n s : run wit (fits_in_bits n 0) s = run wit (fits_in_bits n 1) s.
Proof. reflexivity. Qed.

(** ** decompose *)
Lemma wires_bits rho ls bs : wire_bits rho ls bs -> wires rho ls = map Z.b2z bs.
Proof.
  induction 1; auto. unfold wires in *. cbn [map]. f_equal; auto. now apply wire_bit_feval.
Qed.

Lemma top_decompose_sound wit n k s bv s' rho : run wit (num_decompose n k) s = (Ok bv, s') -> sat rho s' ->
  exists bs, length bs = k /\ wires rho (bv_bits bv) = map Z.b2z bs /\
    feval rho (n_lc n) = bits_value bs mod modulus /\
    ((k < NUM_BITS)%nat -> feval rho (n_lc n) = bits_value bs).
Proof.
  intros Hr Hs.
  destruct (swp_run_any _ _ _ _ _ _ _ Hr Hs (num_decompose_swp rho (proj1 Hs) Any n k))
    as (bs & Hl & [_ Hw] & He & _).
  exists bs. split; auto. split; [now apply wires_bits|].
  split; [exact (proj1 (eqp_eq _ _) He)|].
  intros Hk. apply (bits_unique _ _ k Hk Hl); [apply fmk_canon|]. rewrite eqp_feval. exact He.
Qed.

Lemma top_decompose_complete n k v s : good s -> num_at s n v -> (k <= NUM_BITS)%nat -> v < 2 ^ Z.of_nat k ->
  exists bv s', run true (num_decompose n k) s = (Ok bv, s') /\ good s' /\
    exists bs, bits_value bs = v /\ length bs = k /\ bv_vals bv = Some bs /\
      Forall2 (carries s') (bv_bits bv) (map Z.b2z bs).
Proof.
  intros G Hn Hk Hv.
  destruct (hwp_run _ s _ G (fun rho Ha one =>
     num_decompose_hwp rho one n k v (num_at_is_num _ _ _ _ Hn Ha one) Hk Hv))
    as (bv & s' & Hr & Hg & _ & HQ).
  exists bv, s'. split; auto. split; auto. cbv beta in HQ.
  exists (map (fun i => Z.testbit v (Z.of_nat i)) (seq 0 k)).
  destruct Hn as (_ & Hc & _).
  split; [rewrite testbits_value_0, Z.mod_small; auto; destruct Hc; lia|].
  split; [now rewrite map_length, seq_length|].
  split; [apply (HQ _ (agree_asg s'))|].
  apply carries_list. intros rho Ha. destruct (HQ rho Ha) as (_ & _ & Hw). now apply wires_bits.
Qed.

Lemma top_decompose_exact wit n k v s bv s' rho0 :
  good_for rho0 s -> carries_for rho0 s (n_lc n) v -> (forall x, n_val n = Some x -> canon x) ->
  run wit (num_decompose n k) s = (Ok bv, s') -> (k <= NUM_BITS)%nat ->
  ((exists rho, same_on s rho rho0 /\ sat rho s') <-> v < 2 ^ Z.of_nat k).
Proof.
  intros G Hn Hx Hr Hk. split.
  - intros (rho & Hso & Hs).
    destruct (top_decompose_sound _ _ _ _ _ _ _ Hr Hs) as (bs & Hl & _ & He & _).
    rewrite <- (Hn rho Hso (proj1 Hs)), He. pose proof (bits_value_bound bs). subst k.
    pose proof mod_pos. pose proof (Z.mod_le (bits_value bs) modulus). lia.
  - intros Hv. pose proof (same_on_refl s rho0) as R. pose proof (G _ R) as G0.
    assert (Hc : canon v) by (rewrite <- (Hn _ R (proj1 G0)); apply fmk_canon).
    destruct (awp_run wit (num_decompose n k) s rho0 _ (fun _ _ => True) bv s' G
      (fun rho Hso one => awp_mono _ _ _ _ _ _ (num_decompose_awp rho one (md_of wit) n k v
          (carries_for_eqp _ _ _ _ _ Hn Hso one) ltac:(destruct Hc; lia) Hk Hx (md_of_not _ _)) (fun _ _ => I)) Hr)
      as (rho' & H1 & H2 & _).
    exists rho'. split; auto. apply H2, same_on_refl.
Qed.

Lemma top_decompose_ambiguous wit n v s bv s' rho0 :
  good_for rho0 s -> carries_for rho0 s (n_lc n) v -> (forall x, n_val n = Some x -> canon x) ->
  run wit (num_decompose n NUM_BITS) s = (Ok bv, s') ->
  v + modulus < 2 ^ Z.of_nat NUM_BITS ->
  exists rho bs, same_on s rho rho0 /\ sat rho s' /\
    wires rho (bv_bits bv) = map Z.b2z bs /\ bits_value bs = v + modulus.
Proof.
  intros G Hn Hx Hr Hv. pose proof (same_on_refl s rho0) as R. pose proof (G _ R) as G0.
  assert (Hc : canon v) by (rewrite <- (Hn _ R (proj1 G0)); apply fmk_canon).
  pose proof mod_pos as Mp.
  assert (Hb : 0 <= v + modulus < 2 ^ Z.of_nat NUM_BITS) by (destruct Hc; lia).
  destruct (awp_run wit (num_decompose n NUM_BITS) s rho0 _ _ bv s' G
      (fun rho Hso one => num_decompose_awp rho one (md_of wit) n NUM_BITS (v + modulus)
          ltac:(rewrite (carries_for_eqp _ _ _ _ _ Hn Hso one); exists (-1); ring)
          Hb (le_n _) Hx (md_of_not _ _)) Hr) as (rho' & H1 & H2 & H3).
  exists rho', (map (fun i => Z.testbit (v + modulus) (Z.of_nat i)) (seq 0 NUM_BITS)).
  split; auto. split; [apply H2, same_on_refl|].
  split; [apply wires_bits, (proj1 (H3 rho' (same_on_refl _ _)))|].
  rewrite testbits_value_0, Z.mod_small; auto; lia.
Qed.

(** ** Bit vectors *)
Section BV.
Context (rho : assignment).

Lemma aligned_intro bits vs al : Forall2 (fun l v => feval rho l = Z.b2z v) bits vs ->
  aligned rho (mkBV bits (Some vs) al) vs.
Proof. intros H. split; auto. Qed.

Lemma Forall2_firstn {A B} (R : A -> B -> Prop) l1 l2 n : Forall2 R l1 l2 -> Forall2 R (firstn n l1) (firstn n l2).
Proof. intros H. revert n. induction H; intros [|n]; simpl; constructor; auto. Qed.
Lemma Forall2_skipn {A B} (R : A -> B -> Prop) l1 l2 n : Forall2 R l1 l2 -> Forall2 R (skipn n l1) (skipn n l2).
Proof. intros H. revert n. induction H; intros [|n]; simpl; auto. Qed.
Lemma Forall2_rev {A B} (R : A -> B -> Prop) l1 l2 : Forall2 R l1 l2 -> Forall2 R (rev l1) (rev l2).
Proof. induction 1; simpl; auto. apply Forall2_app; auto. Qed.
Lemma Forall2_repeat {A B} (R : A -> B -> Prop) a b n : R a b -> Forall2 R (repeat a n) (repeat b n).
Proof. intros H. induction n; simpl; auto. Qed.

Lemma list_snoc {A} (l : list A) : l = [] \/ exists l' a, l = l' ++ [a].
Proof. induction l using rev_ind; [now left|right; eauto]. Qed.
Lemma vec_pop_last {A} (l : list A) a : vec_pop (l ++ [a]) = Some (a, l).
Proof. unfold vec_pop. rewrite rev_app_distr. simpl. now rewrite rev_involutive. Qed.

Lemma top_bv_step op bv vs : aligned rho bv vs -> op_ok rho op ->
  match spec_op op vs with
  | Some vs' => exists bv', bv_op op bv = Ok bv' /\ aligned rho bv' vs'
  | None => bv_op op bv = Panic
  end.
Proof.
  intros [Hv Hb] Hop. pose proof (Forall2_length _ _ _ Hb) as Hl.
  destruct op as [|n|i|i|x v|i x v|o ovs|]; simpl in *.
  - eexists; split; [reflexivity|]. unfold bv_reversed. rewrite Hv. apply aligned_intro, Forall2_rev, Hb.
  - eexists; split; [reflexivity|]. unfold bv_truncate. rewrite Hv. apply aligned_intro, Forall2_firstn, Hb.
  - eexists; split; [reflexivity|]. unfold bv_shl. rewrite Hv. apply aligned_intro, Forall2_app; auto.
    apply Forall2_repeat. reflexivity.
  - unfold bv_shr. rewrite Hv. destruct (Nat.leb_spec i (length vs)); cbn [rbind]; auto.
    destruct (Nat.leb_spec i (length (bv_bits bv))); [|lia].
    eexists; split; [reflexivity|]. apply aligned_intro, Forall2_skipn, Hb.
  - destruct Hop as [Ho1 Ho2]. eexists; split; [reflexivity|]. unfold bv_push. rewrite Hv, Ho1.
    apply aligned_intro, Forall2_app; auto.
  - destruct Hop as [Ho1 Ho2]. unfold bv_insert, vec_insert. rewrite Hv, Ho1, Hl.
    destruct (Nat.leb_spec i (length vs)); cbn [rbind]; auto.
    eexists; split; [reflexivity|]. apply aligned_intro, Forall2_app; [now apply Forall2_firstn|].
    constructor; auto. now apply Forall2_skipn.
  - destruct Hop as [Ho1 Ho2]. eexists; split; [reflexivity|]. unfold bv_append. rewrite Hv, Ho1.
    apply aligned_intro, Forall2_app; auto.
  - unfold bv_pop. destruct (list_snoc (bv_bits bv)) as [En|(ls & l & En)]; rewrite En in *.
    + inversion Hb; subst. simpl. eexists; split; [reflexivity|]. split; [now rewrite Hv|].
      rewrite En. constructor.
    + rewrite vec_pop_last. apply Forall2_app_inv_l in Hb.
      destruct Hb as (vs1 & vs2 & Hb1 & Hb2 & ->). inversion Hb2 as [|? v ? ? Hv1 Hn]; subst.
      inversion Hn; subst. rewrite Hv, vec_pop_last. cbn [unwrap rbind rmap snd].
      eexists; split; [reflexivity|]. rewrite removelast_last. now apply aligned_intro.
Qed.

Lemma top_bv_ops ops : forall bv vs, aligned rho bv vs -> Forall (op_ok rho) ops ->
  match spec_ops ops vs with
  | Some vs' => exists bv', bv_ops ops bv = Ok bv' /\ aligned rho bv' vs'
  | None => bv_ops ops bv = Panic
  end.
Proof.
  induction ops as [|op ops IH]; intros bv vs Ha Hf; cbn [spec_ops bv_ops].
  - eauto.
  - inversion Hf; subst. pose proof (top_bv_step op bv vs Ha H1) as S.
    destruct (spec_op op vs) as [vs'|].
    + destruct S as (bv' & -> & Ha'). cbn [rbind]. now apply IH.
    + rewrite S. reflexivity.
Qed.

Lemma bits_value_app l1 l2 : bits_value (l1 ++ l2) =
  bits_value l1 + 2 ^ Z.of_nat (length l1) * bits_value l2.
Proof. unfold bits_value. now rewrite map_app, value_of_app, map_length. Qed.
Lemma bits_value_false i : bits_value (repeat false i) = 0.
Proof. induction i; auto. unfold bits_value in *. cbn [repeat map value_of]. rewrite IHi. reflexivity. Qed.

Lemma top_shl_value bv vs i : aligned rho bv vs ->
  exists vs', aligned rho (bv_shl i bv) vs' /\ bits_value vs' = 2 ^ Z.of_nat i * bits_value vs.
Proof.
  intros H. destruct (top_bv_step (OpShl i) bv vs H I) as (bv' & H1 & H2).
  injection H1 as <-. eexists; split; [exact H2|].
  now rewrite bits_value_app, bits_value_false, repeat_length.
Qed.

Lemma top_truncate_value bv vs n : aligned rho bv vs ->
  exists vs', aligned rho (bv_truncate n bv) vs' /\ bits_value vs' = bits_value vs mod 2 ^ Z.of_nat n.
Proof.
  intros H. destruct (top_bv_step (OpTruncate n) bv vs H I) as (bv' & H1 & H2).
  injection H1 as <-. eexists; split; [exact H2|].
  destruct (Nat.le_gt_cases n (length vs)) as [L|L].
  - rewrite <- (firstn_skipn n vs) at 2. rewrite bits_value_app, firstn_length, Nat.min_l by lia.
    pose proof (bits_value_bound (firstn n vs)) as B. rewrite firstn_length, Nat.min_l in B by lia.
    rewrite Z.mul_comm, Z_mod_plus_full. now rewrite Z.mod_small.
  - rewrite firstn_all2 by lia. pose proof (bits_value_bound vs) as B.
    rewrite Z.mod_small; auto. split; [lia|].
    eapply Z.lt_le_trans; [apply B|]. apply pow2_le. lia.
Qed.

Lemma top_shr_value bv vs i : aligned rho bv vs -> (i <= length vs)%nat ->
  exists bv' vs', bv_shr i bv = Ok bv' /\ aligned rho bv' vs' /\
    bits_value vs' = bits_value vs / 2 ^ Z.of_nat i.
Proof.
  intros H Hi. pose proof (top_bv_step (OpShr i) bv vs H I) as S. cbn [spec_op] in S.
  destruct (Nat.leb_spec i (length vs)); [|lia]. destruct S as (bv' & H1 & H2).
  exists bv', (skipn i vs). split; auto. split; auto.
  rewrite <- (firstn_skipn i vs) at 2. rewrite bits_value_app, firstn_length, Nat.min_l by lia.
  pose proof (bits_value_bound (firstn i vs)) as B. rewrite firstn_length, Nat.min_l in B by lia.
  pose proof (pow2_pos i). rewrite Z.mul_comm, Z.div_add by lia. rewrite Z.div_small; auto.
Qed.

Lemma top_pop bv vs v : aligned rho bv (vs ++ [v]) ->
  exists x bv', bv_pop bv = Ok (Some x, bv') /\ bit_for rho x v /\ aligned rho bv' vs.
Proof.
  intros [Hv Hb]. apply Forall2_app_inv_r in Hb. destruct Hb as (l1 & l2 & H1 & H2 & E2).
  inversion H2 as [|l ? l' ? Hl Hn]; subst. inversion Hn; subst.
  unfold bv_pop. rewrite E2, Hv, !vec_pop_last. cbn [unwrap rbind].
  do 2 eexists. split; [reflexivity|]. split; [split; auto|]. now apply aligned_intro.
Qed.
Lemma top_get bv vs i : aligned rho bv vs ->
  match nth_error vs i with
  | Some v => exists x, bv_get i bv = Ok (Some x) /\ bit_for rho x v
  | None => bv_get i bv = Ok None
  end.
Proof.
  intros [Hv Hb]. unfold bv_get. rewrite Hv.
  assert (K : match nth_error vs i with
    | Some v => exists l, nth_error (bv_bits bv) i = Some l /\ feval rho l = Z.b2z v
    | None => nth_error (bv_bits bv) i = None end).
  { clear Hv. revert i. induction Hb as [|l v ls vs Hl Hb IH]; intros [|i]; cbn; eauto. apply IH. }
  destruct (nth_error vs i) as [v|] eqn:En; [|now rewrite K].
  destruct K as (l & -> & Hl). unfold idx. rewrite En. cbn [unwrap rbind]. eexists. split; [reflexivity|]. split; auto.
Qed.
Lemma top_get_push_none bv vs x : aligned rho bv vs -> b_val x = None -> bv_get (length vs) (bv_push x bv) = Panic.
Proof.
  intros [Hv Hb] Hx. unfold bv_get, bv_push. cbn [bv_bits bv_vals]. rewrite Hv, Hx. cbn [option_map].
  assert (HL : length (bv_bits bv) = length vs) by (clear Hv; induction Hb; cbn; auto).
  rewrite nth_error_app2, HL, Nat.sub_diag by lia. cbn [nth_error].
  unfold idx. now rewrite (proj2 (nth_error_None vs (length vs))) by lia.
Qed.
Lemma top_new_value v : 1 < modulus -> rho ONE = 1 -> bit_for rho (bit_new_value v) v.
Proof.
  intros Hm H. split; [now destruct v|]. unfold feval, fmk. destruct v; cbn [bit_new_value bit_true bit_false b_lc Z.b2z]; lcs; rewrite ?H; [now rewrite Z.mod_1_l|apply Z.mod_0_l; lia].
Qed.
Lemma top_from_sapling x : rho ONE = 1 -> 1 < modulus ->
  let b := bit_from_sapling x in
  match x with
  | BIs a => feval rho (b_lc b) = rho (ab_var a) mod modulus /\ b_val b = ab_val a
  | BNot a => feval rho (b_lc b) = (1 - rho (ab_var a)) mod modulus /\ b_val b = option_map negb (ab_val a)
  | BConst c => feval rho (b_lc b) = Z.b2z c /\ b_val b = Some c
  end.
Proof.
  intros H Hm. unfold bit_from_sapling, fone, fmk. rewrite Z.mod_1_l by lia. destruct x as [a|a|[]]; cbn [bool_lc b_lc b_val bool_val Z.b2z];
    (split; [|reflexivity]); unfold feval, fmk; rewrite ?lc_eval_cons; lcs; rewrite ?H.
  - f_equal. ring.
  - f_equal. ring.
  - rewrite Z.mul_1_l, Z.add_0_r. now apply Z.mod_1_l.
  - apply Z.mod_0_l. lia.
Qed.
End BV.

(** ** from_bits / into_bits *)
Lemma from_bits_vals bs : bv_vals (bv_from_bits bs) = all_some (map b_val bs).
Proof.
  unfold bv_from_bits; simpl.
  assert (N : forall l, fold_left (fun vs b => match vs, b_val b with
     | Some vs, Some v => Some (vs ++ [v]) | _, _ => None end) l (@None (list bool)) = None).
  { induction l; simpl; auto. }
  assert (G : forall l acc, fold_left (fun vs b => match vs, b_val b with
     | Some vs, Some v => Some (vs ++ [v]) | _, _ => None end) l (Some acc) =
     option_map (fun r => acc ++ r) (all_some (map b_val l))).
  { induction l as [|b l IH]; intros acc; simpl; [now rewrite app_nil_r|].
    destruct (b_val b) as [v|]; [|apply N].
    rewrite IH. unfold all_some. destruct (fold_right _ _ _); simpl; auto. now rewrite <- app_assoc. }
  rewrite G. destruct (all_some _); reflexivity.
Qed.

Lemma into_from_some bs vs : map b_val bs = map Some vs -> bv_into_bits (bv_from_bits bs) = Ok bs.
Proof.
  intros H. unfold bv_into_bits. rewrite from_bits_vals, H.
  assert (A : all_some (map Some vs) = Some vs).
  { clear. induction vs; simpl; auto. unfold all_some in *. now rewrite IHvs. }
  rewrite A. cbn [bv_bits bv_from_bits].
  assert (G : forall bs vs pre, map b_val bs = map Some vs ->
     rmapM (fun p => let? v := idx (pre ++ vs) (fst p) in Ok (mkBit (snd p) (Some v)))
       (combine (seq (length pre) (length (map b_lc bs))) (map b_lc bs)) = Ok bs).
  { clear. induction bs as [|b bs IH]; intros [|v vs] pre H; try discriminate; auto.
    injection H as H1 H2. cbn [map length seq combine rmapM fst snd].
    assert (I0 : idx (pre ++ v :: vs) (length pre) = Ok v).
    { unfold idx. rewrite nth_error_app2, Nat.sub_diag by lia. reflexivity. }
    rewrite I0. cbn [rbind]. specialize (IH vs (pre ++ [v]) H2).
    rewrite app_length in IH. cbn [length] in IH. rewrite Nat.add_1_r, <- app_assoc in IH.
    cbn [app] in IH. rewrite IH. cbn [rbind]. destruct b; simpl in *; subst; reflexivity. }
  apply (G bs vs [] H).
Qed.

Lemma top_into_from bs :
  bv_bits (bv_from_bits bs) = map b_lc bs /\
  ((forall b, In b bs -> b_val b <> None) -> bv_into_bits (bv_from_bits bs) = Ok bs) /\
  ((exists b, In b bs /\ b_val b = None) ->
     bv_into_bits (bv_from_bits bs) = Ok (map (fun b => mkBit (b_lc b) None) bs)).
Proof.
  split; [reflexivity|]. split.
  - intros H. assert (exists vs, map b_val bs = map Some vs) as [vs Hvs].
    { induction bs as [|b bs IH]; [exists []; auto|].
      destruct IH as [vs Hvs]; [intros; apply H; now right|].
      destruct (b_val b) as [v|] eqn:Eb; [|exfalso; apply (H b); [now left|auto]].
      exists (v :: vs). simpl. now rewrite Eb, Hvs. }
    eapply into_from_some; eauto.
  - intros (b & Hb & Hn). unfold bv_into_bits. rewrite from_bits_vals.
    assert (A : all_some (map b_val bs) = None).
    { induction bs as [|c bs IH]; [destruct Hb|]. simpl. destruct Hb as [->|Hb].
      - now rewrite Hn.
      - specialize (IH Hb). unfold all_some in IH |- *. simpl. rewrite IH. now destruct (b_val c). }
    rewrite A. cbn [bv_bits bv_from_bits]. now rewrite map_map.
Qed.

Lemma top_push_none rho bv vs x : aligned rho bv vs -> b_val x = None ->
  bv_into_bits (bv_push x bv) = Panic.
Proof.
  intros [Hv Hb] Hx. unfold bv_into_bits, bv_push. rewrite Hv, Hx. cbn [bv_vals bv_bits].
  pose proof (Forall2_length _ _ _ Hb) as Hl.
  assert (G : forall (ls : list LC) k, (length vs < k + length ls)%nat -> (k <= length vs)%nat ->
     rmapM (fun p => let? v := idx vs (fst p) in Ok (mkBit (snd p) (Some v)))
       (combine (seq k (length ls)) ls) = Panic).
  { induction ls as [|l ls IH]; intros k H1 H2; cbn [length] in *; [lia|].
    cbn [seq combine rmapM fst snd]. unfold idx at 1.
    destruct (nth_error vs k) as [v|] eqn:En.
    - cbn [unwrap rbind]. assert (k < length vs)%nat by (apply nth_error_Some; congruence).
      rewrite IH by lia. reflexivity.
    - reflexivity. }
  apply G; [rewrite app_length; simpl; lia|lia].
Qed.

(** [Num::is_equal] looks at the bits that were allocated, not at the current ones. *)
Lemma bv_op_allocs op bv bv' : bv_op op bv = Ok bv' -> bv_allocs bv' = bv_allocs bv.
Proof.
  destruct op; cbn [bv_op].
  1,2,3,5,7: intros H; injection H as <-; reflexivity.
  - unfold bv_shr. destruct (bv_vals bv) as [vs|].
    + destruct (i <=? length vs)%nat; cbn [rbind]; [|discriminate]. destruct (_ <=? _)%nat; [|discriminate]. intros H; injection H as <-; reflexivity.
    + cbn [rbind]. destruct (_ <=? _)%nat; [|discriminate]. intros H; injection H as <-; reflexivity.
  - unfold bv_insert. match goal with |- rbind ?x _ = _ -> _ => destruct x; cbn [rbind]; try discriminate end.
    destruct (vec_insert _ _ (bv_bits bv)); cbn [rbind]; try discriminate. intros H; injection H as <-; reflexivity.
  - unfold bv_pop. destruct (vec_pop (bv_bits bv)) as [[l bits]|].
    + destruct (bv_vals bv) as [vs|].
      * destruct (vec_pop vs) as [[v vs']|]; cbn [rmap rbind unwrap snd]; try discriminate; intros H; injection H as <-; reflexivity.
      * cbn [rmap rbind snd]. intros H; injection H as <-; reflexivity.
    + cbn [rmap rbind snd]. intros H; injection H as <-; reflexivity.
Qed.
Lemma top_is_equal_stale wit n ops : forall bv bv' s, bv_ops ops bv = Ok bv' ->
  run wit (num_is_equal n bv') s = run wit (num_is_equal n bv) s.
Proof.
  assert (K : forall bv bv', bv_ops ops bv = Ok bv' -> bv_allocs bv' = bv_allocs bv).
  { induction ops as [|op ops IH]; intros bv bv'; cbn [bv_ops]; [congruence|].
    destruct (bv_op op bv) as [b| |] eqn:Eb; cbn [rbind]; try discriminate.
    intros H. rewrite (IH _ _ H). eapply bv_op_allocs; eauto. }
  intros bv bv' s H. unfold num_is_equal. now rewrite (K _ _ H).
Qed.
Lemma top_is_equal_iff wit n bv s : exists s', run wit (num_is_equal n bv) s = (Ok tt, s') /\
  forall rho bs, Forall2 (fun b x => feval rho (b_lc b) = Z.b2z x) (bv_allocs bv) bs ->
    (sat rho s' <-> sat rho s /\ feval rho (n_lc n) = bits_value bs mod modulus).
Proof.
  destruct (run wit (num_is_equal n bv) s) as [r s'] eqn:Hr. exists s'.
  assert (r = Ok tt) as -> by (cbn in Hr; congruence). split; auto. intros rho bs Hb.
  assert (Hb' : wire_bits rho (map b_lc (bv_allocs bv)) bs).
  { clear -Hb W. induction Hb; simpl; constructor; auto. now apply wire_bit_feval. }
  assert (K : eqp (lc_eval rho (n_lc n)) (bits_value bs) <-> feval rho (n_lc n) = bits_value bs mod modulus) by apply eqp_mod.
  split.
  - intros Hs. split; [eapply run_sat; eauto|]. apply K.
    exact (swp_run_any _ _ _ _ _ _ _ Hr Hs (num_is_equal_swp rho (proj1 Hs) Any n bv bs Hb')).
  - intros [Hs H]. apply (awp_run_nil Any wit rho (num_is_equal n bv) s (fun _ => True) tt); auto.
    apply (num_is_equal_awp rho (proj1 Hs) Any n bv bs Hb'). now apply K.
Qed.
Lemma top_is_equal_from_bits wit n ops bits bv s : bv_ops ops (bv_from_bits bits) = Ok bv ->
  exists s', run wit (num_is_equal n bv) s = (Ok tt, s') /\
  forall rho bs, Forall2 (fun b x => feval rho (b_lc b) = Z.b2z x) bits bs ->
    (sat rho s' <-> sat rho s /\ feval rho (n_lc n) = bits_value bs mod modulus).
Proof. intros H. rewrite (top_is_equal_stale wit n ops _ _ s H). apply top_is_equal_iff. Qed.
End Top.
