(** Grouping of limbs. *)
From Coq Require Import ZArith Bool List Lia Setoid Morphisms ZifyBool ZifyNat.
From Verif.Model Require Import Base CS Bellpepper Util Poly Bignat.
From Verif.Spec Require Import Spec.
From Verif.Proofs Require Import Field Arith Convert Limbs Wp Lc BitNum PolyP BoolP BignatEq BignatAlloc.
Import ListNotations.
Local Open Scope Z_scope.

(** ** Sums over groups *)
Lemma sum_n_prod a b f : sum_n (a * b) f = sum_n a (fun q => sum_n b (fun t => f (q * b + t)%nat)).
Proof.
  induction a; [reflexivity|]. cbn [sum_n]. rewrite <- IHa.
  replace (S a * b)%nat with (a * b + b)%nat by lia. apply sum_n_app.
Qed.
Lemma sum_n_single n j (f : nat -> Z) : (j < n)%nat ->
  sum_n n (fun q => if (q =? j)%nat then f q else 0) = f j.
Proof.
  induction n; intros H; [lia|]. cbn [sum_n]. destruct (Nat.eqb_spec n j).
  - subst. rewrite (sum_n_ext _ _ (fun _ => 0)); [rewrite sum_n_zero; lia|].
    intros i Hi. destruct (Nat.eqb_spec i j); auto; lia.
  - rewrite IHn by lia. lia.
Qed.
Lemma sum_n_extend n m f : (n <= m)%nat -> (forall i, (n <= i < m)%nat -> f i = 0) ->
  sum_n m f = sum_n n f.
Proof.
  intros H Hf. replace m with (n + (m - n))%nat by lia. rewrite sum_n_app.
  rewrite (sum_n_ext (m - n) _ (fun _ => 0)); [rewrite sum_n_zero; lia|].
  intros i Hi. apply Hf. lia.
Qed.

Lemma value_of_group B g n l : (length l <= n * g)%nat ->
  value_of (B ^ Z.of_nat g) (group_digits B g n l) = value_of B l.
Proof.
  intros H. unfold group_digits. rewrite value_of_sum_nth, value_of_sum.
  rewrite <- (sum_n_extend (length l) (n * g));
    [|auto|intros i Hi; rewrite nth_overflow by lia; ring].
  rewrite sum_n_prod. apply sum_n_ext. intros j Hj. unfold group_digit.
  rewrite Z.mul_comm, sum_n_scale. apply sum_n_ext. intros t Ht.
  rewrite pow_add, Nat2Z.inj_mul, Z.mul_comm with (n := Z.of_nat j), Z.pow_mul_r by lia. ring.
Qed.

Definition ones (B : Z) (g : nat) : Z := sum_n g (fun t => B ^ Z.of_nat t).
Lemma ones_spec B g : (B - 1) * ones B g = B ^ Z.of_nat g - 1.
Proof.
  unfold ones. induction g; [cbn [sum_n]; change (B ^ Z.of_nat 0) with 1; ring|]. cbn [sum_n]. rewrite Z.mul_add_distr_l, IHg, pow_S. ring.
Qed.
Lemma ones_nonneg B g : 0 < B -> 0 <= ones B g.
Proof. intros H. apply sum_n_nonneg. intros. apply Z.pow_nonneg; lia. Qed.

Lemma nth_range {A} (P : A -> Prop) l d : P d -> Forall P l -> forall i, P (nth i l d).
Proof.
  intros Hd H i. destruct (nth_in_or_default i l d) as [Hi| ->]; auto.
  rewrite Forall_forall in H. auto.
Qed.

Lemma group_digit_bound B g l j M : 0 < B -> 0 <= M -> Forall (fun d => 0 <= d <= M) l ->
  0 <= group_digit B g l j <= ones B g * M.
Proof.
  intros HB HM HF. unfold group_digit, ones.
  pose proof (nth_range (fun d => 0 <= d <= M) l 0 (conj (Z.le_refl 0) HM) HF) as H. cbv beta in H. split.
  - apply sum_n_nonneg. intros t _. specialize (H (j * g + t)%nat); cbv beta in H.
    pose proof (Z.pow_pos_nonneg B (Z.of_nat t) HB ltac:(lia)). nia.
  - rewrite Z.mul_comm, sum_n_scale. apply sum_n_le. intros t _. specialize (H (j * g + t)%nat); cbv beta in H.
    pose proof (Z.pow_pos_nonneg B (Z.of_nat t) HB ltac:(lia)). nia.
Qed.

Lemma group_digits_length B g n l : length (group_digits B g n l) = n.
Proof. unfold group_digits. now rewrite map_length, seq_length. Qed.
Lemma nth_group_digits B g n l j : (j < n)%nat -> nth j (group_digits B g n l) 0 = group_digit B g l j.
Proof.
  intros Hj. unfold group_digits. rewrite (nth_indep _ 0 (group_digit B g l 0))
    by (rewrite map_length, seq_length; auto).
  now rewrite map_nth, seq_nth.
Qed.
Lemma group_digits_bound B g n l M : 0 < B -> 0 <= M -> Forall (fun d => 0 <= d <= M) l ->
  Forall (fun d => 0 <= d <= ones B g * M) (group_digits B g n l).
Proof.
  intros. unfold group_digits. apply Forall_map, Forall_forall. intros. now apply group_digit_bound.
Qed.

(** ** The bit pattern with a bit at each limb position *)
Lemma setbit_add a n : 0 <= n -> 0 <= a < 2 ^ n -> Z.setbit a n = a + 2 ^ n.
Proof.
  intros Hn Ha. rewrite Z.setbit_spec'. assert (H : Z.land a (2 ^ n) = 0).
  { apply Z.bits_inj'. intros i Hi. rewrite Z.land_spec, Z.bits_0, Z.pow2_bits_eqb by lia.
    destruct (Z.eqb_spec n i); [|apply andb_false_r]. subst i.
    rewrite andb_true_r. destruct (Z.eq_dec a 0) as [->|Hz]; [apply Z.bits_0|].
    apply Z.bits_above_log2; [lia|]. apply Z.log2_lt_pow2; lia. }
  rewrite Z.add_nocarry_lxor, Z.lxor_lor by auto. reflexivity.
Qed.

Lemma ones_lt w g : (1 <= w)%nat -> ones (2 ^ Z.of_nat w) g < 2 ^ Z.of_nat (g * w) \/ g = 0%nat.
Proof.
  intros Hw. destruct g; [now right|left]. pose proof (ones_spec (2 ^ Z.of_nat w) (S g)) as H.
  rewrite (Nat.mul_comm (S g) w), pow2_mul.
  assert (2 <= 2 ^ Z.of_nat w) by (change 2 with (2 ^ Z.of_nat 1) at 1; now apply pow2_le).
  pose proof (ones_nonneg (2 ^ Z.of_nat w) (S g) ltac:(lia)). nia.
Qed.

Lemma ones_at_spec w g : (1 <= w)%nat -> ones_at w g = ones (2 ^ Z.of_nat w) g.
Proof.
  intros Hw. unfold ones_at. induction g; [reflexivity|].
  rewrite seq_S, fold_left_app, IHg. cbn [fold_left Nat.add]. unfold ones at 2. cbn [sum_n].
  fold (ones (2 ^ Z.of_nat w) g). rewrite setbit_add.
  - rewrite (Nat.mul_comm g w), pow2_mul. reflexivity.
  - lia.
  - pose proof (ones_nonneg (2 ^ Z.of_nat w) g (pow2_pos w)). split; auto.
    destruct (ones_lt w g Hw) as [H1| ->]; auto. cbn. lia.
Qed.

(** ** The accumulation loop *)
Section Loop.
Context {E : Env} {W : Wf E}.

Lemma update_length {A} k (f : A -> A) l : length (update k f l) = length l.
Proof. revert k. induction l; intros [|k]; simpl; auto. Qed.
Lemma nth_update {A} (f : A -> A) d : forall l k j, (k < length l)%nat ->
  nth j (update k f l) d = if (k =? j)%nat then f (nth j l d) else nth j l d.
Proof.
  induction l as [|a l IH]; intros k j Hk; simpl in Hk; [lia|].
  destruct k, j; cbn [update nth Nat.eqb]; auto. apply IH. lia.
Qed.

Fixpoint contrib {A} (I : A -> Z) (B : Z) (g i : nat) (xs : list A) (j : nat) : Z :=
  match xs with
  | [] => 0
  | x :: xs => (if (i / g =? j)%nat then I x * B ^ Z.of_nat (i mod g) else 0) + contrib I B g (S i) xs j
  end.

Lemma contrib_sum {A} (I : A -> Z) B g j xs : forall i,
  contrib I B g i xs j = sum_n (length xs) (fun k =>
     if ((i + k) / g =? j)%nat then nth k (map I xs) 0 * B ^ Z.of_nat ((i + k) mod g) else 0).
Proof.
  induction xs as [|x xs IH]; intros i; [reflexivity|]. cbn [contrib length].
  rewrite sum_n_S, Nat.add_0_r. cbn [map nth]. f_equal. rewrite IH. apply sum_n_ext. intros k _.
  now rewrite Nat.add_succ_r.
Qed.

Lemma contrib_group {A} (I : A -> Z) B g n j xs : (1 <= g)%nat -> (length xs <= n * g)%nat -> (j < n)%nat ->
  contrib I B g 0 xs j = group_digit B g (map I xs) j.
Proof.
  intros Hg Hl Hj. rewrite contrib_sum.
  rewrite <- (sum_n_extend (length xs) (n * g)).
  2:{ exact Hl. }
  2:{ intros i Hi. rewrite nth_overflow by (rewrite map_length; lia). destruct (_ =? _)%nat; ring. }
  rewrite sum_n_prod. unfold group_digit.
  rewrite <- (sum_n_single n j (fun j => sum_n g (fun t => nth (j * g + t) (map I xs) 0 * B ^ Z.of_nat t)) Hj).
  apply sum_n_ext. intros q Hq. destruct (Nat.eqb_spec q j) as [->|Hne].
  - apply sum_n_ext. intros t Ht. cbn [Nat.add].
    rewrite Nat.add_comm, Nat.div_add, Nat.div_small, Nat.mod_add, Nat.mod_small, Nat.eqb_refl by lia.
    reflexivity.
  - rewrite (sum_n_ext _ _ (fun _ => 0)); [apply sum_n_zero|]. intros t Ht. cbn [Nat.add].
    rewrite Nat.add_comm, Nat.div_add, Nat.div_small by lia.
    destruct (Nat.eqb_spec (0 + q) j); auto; lia.
Qed.

Lemma group_loop_ok {A} (add : A -> Z -> A -> A) (I : A -> Z) (d : A) B block g :
  (forall o s x, eqp (I (add o s x)) (I o + s * I x)) -> eqp block B -> (1 <= g)%nat ->
  forall xs i shift acc,
  ((i mod g)%nat <> 0%nat -> eqp shift (B ^ Z.of_nat (i mod g)%nat)) -> (i + length xs <= length acc * g)%nat ->
  exists acc', group_loop add block g i shift xs acc = Ok acc' /\ length acc' = length acc /\
    (forall j, (j < length acc)%nat -> eqp (I (nth j acc' d)) (I (nth j acc d) + contrib I B g i xs j)) /\
    (forall P : A -> Prop, (forall o s x, P (add o s x)) -> Forall P acc -> Forall P acc').
Proof.
  intros Hadd Hb Hg. induction xs as [|x xs IH]; intros i shift acc Hs HL; cbn [group_loop contrib].
  - exists acc. split; auto. split; auto. split; auto. intros. now rewrite Z.add_0_r.
  - cbn [length] in HL.
    assert (Hi : (i / g < length acc)%nat) by (apply Nat.div_lt_upper_bound; lia).
    rewrite (proj2 (Nat.ltb_lt _ _) Hi).
    set (sh := if (i mod g =? 0)%nat then fone else shift).
    assert (Hsh : eqp sh (B ^ Z.of_nat (i mod g))).
    { unfold sh. destruct (Nat.eqb_spec (i mod g) 0) as [->|Hne]; [apply eqp_fone|auto]. }
    destruct (IH (S i) (fmul sh block) (update (i / g) (fun old => add old sh x) acc)) as (acc' & Ha & Hl & Hn & Hp).
    { intros Hne. feq. rewrite Hsh, Hb.
      assert (Hm : (S i mod g = S (i mod g))%nat).
      { pose proof (Nat.mod_upper_bound i g ltac:(lia)). 
        destruct (Nat.eq_dec (S (i mod g)) g) as [Heq|Hne2].
        - exfalso. apply Hne. rewrite <- (Nat.add_1_r i), <- Nat.add_mod_idemp_l, Nat.add_1_r, Heq by lia.
          apply Nat.mod_same. lia.
        - rewrite <- (Nat.add_1_r i), <- Nat.add_mod_idemp_l, Nat.add_1_r by lia. apply Nat.mod_small. lia. }
      rewrite Hm, pow_S. ering. }
    { rewrite update_length. lia. }
    exists acc'. rewrite update_length in Hl, Hn. split; auto. split; auto. split.
    + intros j Hj. rewrite (Hn j Hj), nth_update by auto.
      destruct (Nat.eqb_spec (i / g) j) as [_|_]; [|apply eqp_ring; ring].
      rewrite Hadd, Hsh. apply eqp_ring; ring.
    + intros P HP HF. apply Hp; auto. clear -HP HF. revert HF. generalize (i / g)%nat.
      induction acc; intros k HF; destruct k; cbn [update]; auto; inversion HF; subst; constructor; auto.
Qed.

Lemma limb_block_eqp w : eqp (limb_block w) (2 ^ Z.of_nat w).
Proof.
  unfold limb_block. induction w.
  - apply eqp_fone.
  - change (Nat.iter (S w) fdouble fone) with (fdouble (Nat.iter w fdouble fone)).
    rewrite eqp_fdouble, IHw, pow2_S. reflexivity.
Qed.

Lemma group_digit_eqp B g l1 l2 j : Forall2 eqp l1 l2 -> eqp (group_digit B g l1 j) (group_digit B g l2 j).
Proof.
  intros H. unfold group_digit. induction g; [reflexivity|].
  assert (G : forall n, eqp (sum_n n (fun t => nth (j * S g + t) l1 0 * B ^ Z.of_nat t))
                            (sum_n n (fun t => nth (j * S g + t) l2 0 * B ^ Z.of_nat t))).
  { induction n; [reflexivity|]. cbn [sum_n]. rewrite IHn.
    assert (Hn : eqp (nth (j * S g + n) l1 0) (nth (j * S g + n) l2 0)).
    { destruct (Nat.lt_ge_cases (j * S g + n) (length l1)).
      - now apply (Forall2_nth _ _ _ H).
      - rewrite !nth_overflow; [reflexivity| |]; rewrite <- ?(Forall2_length _ _ _ H); lia. }
    now rewrite Hn. }
  apply G.
Qed.

Lemma n_groups_fit n g : (1 <= n)%nat -> (1 <= g)%nat -> (n <= n_groups n g * g)%nat.
Proof.
  intros Hn Hg. unfold n_groups. destruct n as [|k]; [lia|]. pose proof (Nat.div_mod k g ltac:(lia)).
  pose proof (Nat.mod_upper_bound k g ltac:(lia)). lia.
Qed.

Lemma n_groups_fit0 n g : (1 <= g)%nat -> (n <= n_groups n g * g)%nat.
Proof. intros Hg. destruct n as [|n]; [lia|]. apply n_groups_fit; lia. Qed.
Lemma group_digits_bound' B g l M : 0 < B -> Forall (fun d => 0 <= d <= M) l ->
  Forall (fun d => 0 <= d <= ones B g * M) (group_digits B g (n_groups (length l) g) l).
Proof.
  intros HB H. destruct l as [|x l]; [constructor|]. apply group_digits_bound; [assumption| |assumption].
  inversion H; subst. lia.
Qed.
Lemma n_groups_mono n m g : (1 <= g)%nat -> (n <= m)%nat -> (n_groups n g <= n_groups m g)%nat.
Proof.
  intros Hg H. unfold n_groups. destruct n as [|n]; [lia|]. destruct m as [|m]; [lia|].
  apply Nat.add_le_mono_r. apply Nat.div_le_mono; lia.
Qed.

(** ** [group_limbs] *)
Lemma group_limbs_ok b g : (1 <= length (limbs b))%nat -> (1 <= g)%nat -> lv_ok b ->
  let n := n_groups (length (limbs b)) g in
  let B := 2 ^ Z.of_nat (limb_width (bparams b)) in
  exists b', group_limbs b g = Ok b' /\
    bparams b' = mkParams (min_bits (bparams b)) (ones_at (limb_width (bparams b)) g * max_word (bparams b))
                   (limb_width (bparams b) * g) n /\
    length (limbs b') = n /\ value b' = value b /\ lv_ok b' /\
    (forall rho vs, ev rho (limbs b) vs -> ev rho (limbs b') (group_digits B g n vs)) /\
    (forall vs, limb_values b = Some vs -> 
       limb_values b' = Some (map fmk (group_digits B g n vs))).
Proof.
  intros HL Hg Hlv n B. unfold group_limbs, group_count.
  rewrite (proj2 (Nat.eqb_neq g 0)) by lia.
  replace (match length (limbs b) with O => _ | S n1 => Ok (n1 / g + 1)%nat end) with (Ok n) by (unfold n, n_groups; destruct (limbs b); [cbn in HL; lia|reflexivity]).
  cbn [rbind].
  pose proof (n_groups_fit _ _ HL Hg) as Hfit. fold n in Hfit.
  (* limbs *)
  assert (HLs : exists ls, group_loop (fun old s l => lc_add old (lc_scale s l))
     (limb_block (limb_width (bparams b))) g 0 fone (limbs b) (repeat lc_zero n) = Ok ls /\ length ls = n /\
     forall rho vs, ev rho (limbs b) vs -> ev rho ls (group_digits B g n vs)).
  { assert (Hloop : forall rho, exists ls, group_loop (fun old s l => lc_add old (lc_scale s l))
     (limb_block (limb_width (bparams b))) g 0 fone (limbs b) (repeat lc_zero n) = Ok ls /\ length ls = n /\
     ev rho ls (group_digits B g n (map (lc_eval rho) (limbs b)))).
    { intros rho. destruct (group_loop_ok (fun old s l => lc_add old (lc_scale s l)) (lc_eval rho) lc_zero B
        (limb_block (limb_width (bparams b))) g) with (xs := limbs b) (i := 0%nat) (shift := fone) (acc := repeat lc_zero n)
        as (ls & H1 & H2 & H3 & _); auto.
      - intros. lcs. reflexivity.
      - apply limb_block_eqp.
      - rewrite Nat.mod_0_l by lia. congruence.
      - rewrite repeat_length. lia.
      - exists ls. rewrite repeat_length in H2, H3. split; auto. split; auto.
        apply (nth_Forall2 _ lc_zero 0); [now rewrite group_digits_length|].
        intros j Hj. rewrite H2 in Hj. rewrite (H3 j Hj). rewrite nth_repeat. lcs.
        rewrite (contrib_group _ _ _ n) by (auto; lia).
        rewrite nth_group_digits by auto. apply eqp_ring. ring. }
    destruct (Hloop (fun _ => 0)) as (ls & H1 & H2 & _). exists ls. split; auto. split; auto.
    intros rho vs Hev. destruct (Hloop rho) as (ls' & H1' & _ & H3'). rewrite H1 in H1'. injection H1' as <-.
    eapply ev_eqp; [exact H3'|]. apply ev_map in Hev. unfold group_digits.
    clear -Hev. induction (seq 0 n); simpl; constructor; auto. now apply group_digit_eqp. }
  (* values *)
  assert (HVs : forall vs, limb_values b = Some vs -> exists ws,
     group_loop (fun old s v => fadd old (fmul s v)) (limb_block (limb_width (bparams b))) g 0 fone vs
                     (repeat fzero n) = Ok ws /\ ws = map fmk (group_digits B g n vs)).
  { intros vs Hvs. unfold lv_ok in Hlv. rewrite Hvs in Hlv. destruct Hlv as [HLv _].
    destruct (group_loop_ok (fun old s v => fadd old (fmul s v)) (fun x => x) 0 B
        (limb_block (limb_width (bparams b))) g) with (xs := vs) (i := 0%nat) (shift := fone) (acc := repeat fzero n)
        as (ws & H1 & H2 & H3 & H4); auto.
    - intros. feq. feq. reflexivity.
    - apply limb_block_eqp.
    - rewrite Nat.mod_0_l by lia. congruence.
    - rewrite repeat_length. lia.
    - exists ws. split; auto. rewrite repeat_length in H2, H3.
      assert (HC : Forall canon ws).
      { apply H4; [intros; apply fadd_canon|]. apply Forall_forall. intros x Hx.
        apply repeat_spec in Hx. subst. apply canon_0. }
      apply (nth_ext _ _ 0 0); [now rewrite map_length, group_digits_length|].
      intros j Hj. rewrite H2 in Hj.
      rewrite (nth_indep (map fmk _) 0 (fmk 0)) by (rewrite map_length, group_digits_length; lia).
      rewrite map_nth.
      assert (HCj : canon (nth j ws 0)) by (apply nth_range; auto using canon_0).
      apply canon_eqp; auto using fmk_canon. rewrite eqp_fmk, (H3 j Hj), nth_repeat.
      rewrite (contrib_group _ _ _ n), map_id by (auto; lia).
      rewrite nth_group_digits by auto. unfold fzero. apply eqp_ring. ring. }
  destruct HLs as (ls & H1 & H2 & H3).
  destruct (limb_values b) as [vs|] eqn:Ev.
  - destruct (HVs vs eq_refl) as (ws & H4 & H5). rewrite H4. cbn [rbind]. rewrite H1. cbn [rbind].
    eexists. split; [reflexivity|]. cbn [bparams limbs value limb_values]. rewrite H2.
    split; auto. split; auto. split; auto. split; [|split; auto].
    + unfold lv_ok. cbn [limb_values limbs]. rewrite H5, map_length, group_digits_length. split; auto.
      apply Forall_map, Forall_forall. intros. apply fmk_canon.
    + intros vs' H. injection H as <-. now f_equal.
  - cbn [rbind]. rewrite H1. cbn [rbind].
    eexists. split; [reflexivity|]. cbn [bparams limbs value limb_values]. rewrite H2.
    split; auto. split; auto. split; auto. split; [exact I|split; auto]. discriminate.
Qed.

Lemma group_limbs_panic b g : limbs b = [] /\ (overflow_checks = true \/ g <> 1%nat) \/ g = 0%nat -> group_limbs b g = Panic.
Proof.
  intros H. unfold group_limbs, group_count. destruct (Nat.eqb_spec g 0) as [|Hg]; [reflexivity|]. destruct H as [[H1 H2]|H]; [|contradiction].
  rewrite H1. cbn [length]. destruct H2 as [->|H2]; [reflexivity|]. rewrite (proj2 (Nat.eqb_neq g 1) H2), orb_true_r. reflexivity.
Qed.
(** No limbs, one per group, no overflow checks: no groups. *)
Lemma group_limbs_nil b g c : limbs b = [] -> group_limbs b g = Ok c -> g = 1%nat /\ overflow_checks = false /\
  limbs c = [] /\ value c = value b /\ bparams c = mkParams (min_bits (bparams b)) (ones_at (limb_width (bparams b)) 1 * max_word (bparams b)) (limb_width (bparams b) * 1) 0.
Proof.
  intros H. unfold group_limbs, group_count. rewrite H. cbn [length]. destruct (Nat.eqb_spec g 0) as [|Hg]; [discriminate|].
  destruct overflow_checks; cbn [orb]; [discriminate|]. destruct (Nat.eqb_spec g 1) as [->|]; cbn [negb rbind]; [|discriminate].
  intros HR. split; [reflexivity|]. split; [reflexivity|].
  destruct (limb_values b) as [vs|]; cbn [rbind group_loop] in HR.
  - destruct (group_loop _ _ _ _ _ vs _); cbn [rbind] in HR; try discriminate HR. injection HR as <-. auto.
  - injection HR as <-. auto.
Qed.
Lemma group_limbs_nil_ok b : limbs b = [] -> overflow_checks = false -> (limb_values b = None \/ limb_values b = Some []) -> exists c, group_limbs b 1 = Ok c.
Proof.
  intros H HC HV. unfold group_limbs, group_count. rewrite H, HC. cbn [length Nat.eqb orb negb rbind].
  destruct HV as [-> | ->]; cbn [rbind group_loop repeat length]; eexists; reflexivity.
Qed.

Lemma map_fmk_canon l : Forall canon l -> map fmk l = l.
Proof. induction 1; simpl; f_equal; auto. now apply fmk_id. Qed.

Lemma is_bn_group rho md b vs g : is_bn rho md b vs -> (1 <= length vs)%nat -> (1 <= g)%nat ->
  let n := n_groups (length vs) g in
  let B := 2 ^ Z.of_nat (limb_width (bparams b)) in
  Forall canon (group_digits B g n vs) ->
  exists b', group_limbs b g = Ok b' /\ is_bn rho md b' (group_digits B g n vs) /\
    bparams b' = mkParams (min_bits (bparams b)) (ones_at (limb_width (bparams b)) g * max_word (bparams b))
                   (limb_width (bparams b) * g) n.
Proof.
  intros (Hev & Hlv & Hn & Hc & Hh) HL Hg n B HC. pose proof (ev_length _ _ _ Hev) as HLl.
  destruct (group_limbs_ok b g) as (b' & H1 & H2 & H3 & H4 & H5 & H6 & H7); auto; [lia|].
  rewrite HLl in *. fold n in H2, H3, H6, H7. fold B in H6, H7.
  exists b'. split; auto. split; auto. split; [|split; [|split; [|split]]]; auto.
  - rewrite H2, group_digits_length. reflexivity.
  - intros Hm. destruct (Hh Hm) as [Hv Hval]. rewrite (H7 _ Hv), map_fmk_canon by auto. split; auto.
    rewrite H4, Hval, H2. cbn [limb_width]. f_equal. rewrite pow2_mul. fold B.
    rewrite value_of_group; auto. now apply n_groups_fit.
Qed.

End Loop.
