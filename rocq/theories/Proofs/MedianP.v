(** Sorting, comparisons and the median check. *)
From Coq Require Import ZArith Znumtheory Bool List Lia Setoid Morphisms Permutation Sorted ZifyBool ZifyNat.
From Verif.Model Require Import Base CS Bellpepper Util Poly Bignat Ints Median.
From Verif.Spec Require Import Spec.
From Verif.Proofs Require Import Field Arith Convert Limbs Wp Lc BitNum BoolP BignatEq.
Import ListNotations.
Local Open Scope Z_scope.

(** ** Sorting *)
Lemma insert_perm x l : Permutation (x :: l) (insert x l).
Proof.
  induction l as [|y l IH]; cbn [insert]; auto. destruct (x <=? y); auto.
  rewrite perm_swap. now constructor.
Qed.
Lemma sort_perm l : Permutation l (sort l).
Proof. induction l as [|x l IH]; [constructor|]. cbn [sort fold_right]. rewrite <- insert_perm. now constructor. Qed.
Lemma insert_sorted x l : StronglySorted Z.le l -> StronglySorted Z.le (insert x l).
Proof.
  induction l as [|y l IH]; intros H; cbn [insert]; [repeat constructor|].
  apply StronglySorted_inv in H. destruct H as [H1 H2]. destruct (Z.leb_spec x y).
  - constructor; [constructor; auto|]. constructor; auto. eapply Forall_impl; [|exact H2]. cbv beta. intros. lia.
  - constructor; auto. rewrite <- (insert_perm x l). constructor; auto. lia.
Qed.
Lemma sort_sorted l : StronglySorted Z.le (sort l).
Proof. induction l; [constructor|]. cbn [sort fold_right]. now apply insert_sorted. Qed.

Definition count (f : Z -> bool) (l : list Z) : nat := length (filter f l).
Lemma count_perm f l1 l2 : Permutation l1 l2 -> count f l1 = count f l2.
Proof.
  unfold count. induction 1; cbn [filter]; auto.
  - destruct (f x); cbn [length]; auto.
  - destruct (f x), (f y); reflexivity.
  - congruence.
Qed.
Lemma count_app f l1 l2 : count f (l1 ++ l2) = (count f l1 + count f l2)%nat.
Proof. unfold count. now rewrite filter_app, app_length. Qed.
Lemma count_le f l : (count f l <= length l)%nat.
Proof. unfold count. induction l; simpl; auto. destruct (f a); simpl; lia. Qed.
Lemma count_none f l : Forall (fun x => f x = false) l -> count f l = 0%nat.
Proof. induction 1; auto. unfold count in *. cbn [filter]. now rewrite H. Qed.
Lemma count_cons f x l : count f (x :: l) = ((if f x then 1 else 0) + count f l)%nat.
Proof. unfold count. cbn [filter]. destruct (f x); reflexivity. Qed.
Lemma count_split m l : (count (fun t => (t <? m)%Z) l + count (fun t => (m <? t)%Z) l + count (fun t => (t =? m)%Z) l = length l)%nat.
Proof.
  induction l as [|x l IH]; auto. rewrite !count_cons. cbn [length].
  destruct (Z.ltb_spec x m), (Z.ltb_spec m x), (Z.eqb_spec x m); lia.
Qed.

Lemma sorted_split m l1 l2 : StronglySorted Z.le (l1 ++ m :: l2) ->
  Forall (fun x => x <= m) l1 /\ Forall (fun x => m <= x) l2.
Proof.
  induction l1 as [|x l1 IH]; cbn [app]; intros H; apply StronglySorted_inv in H; destruct H as [H1 H2].
  - split; auto.
  - destruct (IH H1) as [I1 I2]. split; auto. constructor; auto.
    apply Forall_app in H2. destruct H2 as [_ H2]. now inversion H2.
Qed.

Lemma sorted_counts k m l : StronglySorted Z.le l -> nth_error l k = Some m ->
  (count (fun t => (t <? m)%Z) l <= k)%nat /\ (count (fun t => (m <? t)%Z) l <= length l - 1 - k)%nat.
Proof.
  intros Hs Hn. destruct (nth_error_split _ _ Hn) as (l1 & l2 & -> & <-).
  destruct (sorted_split _ _ _ Hs) as [H1 H2].
  rewrite !count_app, !count_cons, Z.ltb_irrefl, app_length. cbn [length].
  rewrite (count_none (fun t => t <? m) l2), (count_none (fun t => m <? t) l1).
  - pose proof (count_le (fun t => (t <? m)%Z) l1). pose proof (count_le (fun t => (m <? t)%Z) l2). lia.
  - eapply Forall_impl; [|exact H1]. cbv beta. lia.
  - eapply Forall_impl; [|exact H2]. cbv beta. lia.
Qed.

Section Median.
Context {E : Env} {W : Wf E}.

(** ** The shift constant and the low bits *)
Lemma u128_shl_small a n : 0 <= n < 128 -> 0 <= a -> a * 2 ^ n < 2 ^ 128 -> u128_shl a n = Ok (a * 2 ^ n).
Proof.
  intros Hn Ha Hl. unfold u128_shl, shl, amount. rewrite (proj2 (Z.ltb_lt _ _)) by lia. cbn [rbind].
  rewrite Z.shiftl_mul_pow2 by lia. unfold two_to. rewrite Z.mod_small; auto. split; auto.
  apply Z.mul_nonneg_nonneg; auto. apply Z.pow_nonneg. lia.
Qed.
Lemma zero_shift_low n : (n <= 126)%nat -> zero_shift n = Ok (fmk (2 ^ (Z.of_nat n + 1))).
Proof.
  intros Hn. unfold zero_shift. rewrite (proj2 (Nat.leb_le _ _)) by lia.
  assert (HP : 2 * 2 ^ Z.of_nat n = 2 ^ (Z.of_nat n + 1)) by (rewrite Z.pow_add_r by lia; ring).
  rewrite u128_shl_small; [|lia|lia|].
  - cbn [rbind]. unfold from_u128. now rewrite HP.
  - rewrite HP. apply Z.pow_lt_mono_r; lia.
Qed.
Lemma zero_shift_high n : (127 <= n <= 252)%nat -> zero_shift n = Ok (fmk (2 ^ (Z.of_nat n + 2))).
Proof.
  intros Hn. unfold zero_shift. rewrite (proj2 (Nat.leb_gt _ _)) by lia.
  assert (HP : 2 * 2 ^ Z.of_nat (n - 126) = 2 ^ (Z.of_nat n - 125)).
  { replace (Z.of_nat n - 125) with (1 + Z.of_nat (n - 126)) by lia. rewrite Z.pow_add_r by lia. reflexivity. }
  rewrite u128_shl_small; [|lia|lia|rewrite HP; apply Z.pow_lt_mono_r; lia]. cbn [rbind].
  rewrite u128_shl_small; [|lia|lia|change (2 * 2 ^ 126) with (2 ^ 127); apply Z.pow_lt_mono_r; lia]. cbn [rbind].
  f_equal. rewrite HP. change (2 * 2 ^ 126) with (2 ^ 127). unfold from_u128. unfold fmul.
  apply eqp_eq. rewrite !eqp_fmk. rewrite <- Z.pow_add_r by lia. replace (127 + (Z.of_nat n - 125)) with (Z.of_nat n + 2) by lia. reflexivity.
Qed.

Lemma mod_pow_canon v k : canon v -> canon (v mod 2 ^ k).
Proof.
  intros [H1 H2]. destruct (Z.le_gt_cases 0 k) as [Hk|Hk].
  - pose proof (Z.pow_pos_nonneg 2 k ltac:(lia) Hk). pose proof (Z.mod_pos_bound v (2 ^ k) ltac:(lia)).
    pose proof (Z.mod_le v (2 ^ k) ltac:(lia) ltac:(lia)). split; lia.
  - rewrite Z.pow_neg_r by lia. rewrite Zmod_0_r. split; auto.
Qed.
Lemma low_bits_gen v (Hv : canon v) : forall l k, (k + l <= NUM_BITS)%nat ->
  sum_low_bits (Some v) (seq k l) (fmk (2 ^ Z.of_nat k)) (v mod 2 ^ Z.of_nat k) = Ok (v mod 2 ^ Z.of_nat (k + l)).
Proof.
  induction l as [|l IH]; intros k Hk; cbn [seq sum_low_bits]; [now rewrite Nat.add_0_r|].
  cbn [grab rbind]. rewrite get_bit_in; auto; [|pose proof wf_bits; lia|lia]. cbn [rbind grab].
  assert (HP : 2 ^ Z.of_nat (S k) = 2 * 2 ^ Z.of_nat k) by (rewrite Nat2Z.inj_succ, Z.pow_succ_r by lia; ring).
  assert (HM : v mod 2 ^ Z.of_nat (S k) = v mod 2 ^ Z.of_nat k + Z.b2z (Z.testbit v (Z.of_nat k)) * 2 ^ Z.of_nat k).
  { rewrite HP, Z.mul_comm, Z.rem_mul_r by (pose proof (pow2_pos k); lia).
    f_equal. rewrite Z.mul_comm. f_equal. rewrite <- Z.bit0_mod, Z.div_pow2_bits by lia. reflexivity. }
  replace (k + S l)%nat with (S k + l)%nat by lia. rewrite <- (IH (S k)) by lia. f_equal.
  - rewrite HP. unfold fmul, fadd. apply eqp_eq. rewrite !eqp_fmk, fone_1. ering.
  - rewrite HM. symmetry. rewrite f_of_bool_b2z. unfold fadd.
    assert (HC : canon (v mod 2 ^ Z.of_nat k + Z.b2z (Z.testbit v (Z.of_nat k)) * 2 ^ Z.of_nat k)) by (rewrite <- HM; apply mod_pow_canon; auto).
    rewrite <- (fmk_id _ HC) at 1. unfold fmul. apply eqp_eq. rewrite !eqp_fmk. reflexivity.
Qed.
Lemma low_bits_ok v n : canon v -> (n < NUM_BITS)%nat -> low_bits (Some v) n = Ok (v mod 2 ^ Z.of_nat (S n)).
Proof.
  intros Hv Hn. unfold low_bits. pose proof (low_bits_gen v Hv (S n) 0 ltac:(lia)) as H.
  change (Z.of_nat 0) with 0 in H. rewrite Z.pow_0_r, Z.mod_1_r in H. exact H.
Qed.

(** ** Honest comparisons *)
Section Rho.
Context (rho : assignment) (one : rho ONE = 1).

Lemma fits_eqb z n : canon z -> (z =? z mod 2 ^ Z.of_nat n) = (z <? 2 ^ Z.of_nat n).
Proof.
  intros [H1 H2]. pose proof (pow2_pos n). destruct (Z.ltb_spec z (2 ^ Z.of_nat n)).
  - rewrite Z.mod_small by lia. apply Z.eqb_refl.
  - apply Z.eqb_neq. pose proof (Z.mod_pos_bound z (2 ^ Z.of_nat n)). lia.
Qed.
Lemma less_than_hwp a b n x y S : is_an rho a x -> is_an rho b y -> zero_shift n = Ok S -> (n < NUM_BITS)%nat ->
  hwp rho (less_than a b n) (fun r => is_bool rho r (fsub (fadd x S) y <? 2 ^ Z.of_nat (1 + n))).
Proof.
  intros (Va & Ca & Ha) (Vb & Cb & Hb) HS Hn. unfold less_than. rewrite Va, Vb, HS. cbn [unwrap rbind].
  do 3 hstep. eapply an_alloc_hwp; [reflexivity|]. intros z Hz. cbn [an_val].
  assert (Cz : canon (fsub (fadd x S) y)) by apply fsub_canon.
  do 3 hstep. eapply an_alloc_hwp; [apply low_bits_ok; auto|]. intros nb Hnb.
  hstep. eapply hwp_mono; [apply (equals_hwp rho one _ _ (fsub (fadd x S) y) (fsub (fadd x S) y mod 2 ^ Z.of_nat (1 + n)))|].
  - split; auto. split; auto. cbn [an_var]. now rewrite Hz.
  - split; auto. split; [now apply mod_pow_canon|]. cbn [an_var]. now rewrite Hnb.
  - cbv beta. intros r. rewrite fits_eqb; auto.
Qed.
Lemma leq_hwp a b n x y S : is_an rho a x -> is_an rho b y -> zero_shift n = Ok S -> (n < NUM_BITS)%nat ->
  hwp rho (leq a b n) (fun r => is_bool rho r (fsub (fadd x S) (fadd y fone) <? 2 ^ Z.of_nat (1 + n))).
Proof.
  intros (Va & Ca & Ha) (Vb & Cb & Hb) HS Hn. unfold leq. rewrite Va, Vb, HS. cbn [unwrap rbind].
  do 3 hstep. eapply an_alloc_hwp; [reflexivity|]. intros z Hz. cbn [an_val].
  set (Z0 := fsub (fadd x S) (fadd y fone)) in *.
  assert (Cz : canon Z0) by apply fsub_canon.
  do 3 hstep. eapply an_alloc_hwp; [apply low_bits_ok; auto|]. intros nb Hnb.
  hstep. eapply hwp_mono; [apply (equals_hwp rho one _ _ Z0 (Z0 mod 2 ^ Z.of_nat (1 + n)))|].
  - split; auto. split; auto. cbn [an_var]. now rewrite Hz.
  - split; auto. split; [now apply mod_pow_canon|]. cbn [an_var]. now rewrite Hnb.
  - cbv beta. intros r. rewrite fits_eqb; auto.
Qed.

(** ** What a prover can choose *)
Definition eq_inv (x y : Z) : Z :=
  if fsub x y =? 0 then fone else match finvert (fsub x y) with Some i => i | None => 0 end.
Definition eq_aux (x y : Z) : list Z := [Z.b2z (x =? y); fsub x y; eq_inv x y; fmul (fsub x y) (eq_inv x y)].
Definition both_val {A B C} (f : A -> B -> C) (a : option A) (b : option B) : option C :=
  match a, b with Some x, Some y => Some (f x y) | _, _ => None end.

Lemma equals_awp md a b x y : md <> Honest -> eqp (rho (an_var a)) x -> eqp (rho (an_var b)) y -> canon x -> canon y ->
  awp md rho (equals a b) (eq_aux x y) (fun r => wire_bool rho r (x =? y) /\ bool_val r = both_val Z.eqb (an_val a) (an_val b)).
Proof.
  intros Hmd Ha Hb Cx Cy. unfold equals, eq_aux.
  assert (Hi : fsub x y <> 0 -> eqp ((x - y) * eq_inv x y) 1).
  { unfold eq_inv. destruct (Z.eqb_spec (fsub x y) 0) as [C|C]; [congruence|]. intros _.
    destruct (finvert_spec (fsub x y)) as (i & H1 & H2 & H3).
    { intros H. apply C. apply canon_eq0; auto using fsub_canon. }
    rewrite H1. rewrite <- H3. feq. reflexivity. }
  assert (Hxy : x =? y = (fsub x y =? 0)).
  { destruct (Z.eqb_spec x y) as [->|N].
    - symmetry. apply Z.eqb_eq. apply canon_eq0; auto using fsub_canon. feq. ering.
    - symmetry. apply Z.eqb_neq. intros C. apply N. apply canon_eqp; auto.
      apply (proj1 (eqp_sub_0 _ _)). rewrite <- C. now feq. }
  set (i := eq_inv x y) in *.
  change [Z.b2z (x =? y); fsub x y; i; fmul (fsub x y) i] with ([Z.b2z (x =? y)] ++ [fsub x y] ++ [i] ++ [fmul (fsub x y) i] ++ []).
  apply awp_bind. astep. eapply awp_mono; [apply ab_alloc_awp; [auto|contradiction]|]. cbv beta. intros r [Vr Hr].
  apply awp_bind. astep. apply an_alloc_awp; [contradiction|]. intros d vd Hd _. cbn [an_var an_val].
  apply awp_bind_nil. astep. { lcs. rewrite one, Ha, Hb, Hd. feq. ering. }
  apply awp_bind. astep. apply an_alloc_awp; [contradiction|]. intros vi vvi Hvi _. cbn [an_var an_val].
  apply awp_bind. astep. apply an_alloc_awp; [contradiction|]. intros t vt Ht _. cbn [an_var an_val].
  assert (Et : eqp (rho t) ((x - y) * i)) by (rewrite Ht; feq; feq; reflexivity).
  assert (Er : eqp (rho (ab_var r)) (Z.b2z (x =? y))) by now apply (proj1 (wire_is _ _ _)).
  assert (HQ : wire_bool rho (BIs r) (x =? y) /\ bool_val (BIs r) = both_val Z.eqb (an_val a) (an_val b)) by (split; auto).
  apply awp_bind_nil. astep. { lcs. rewrite Ha, Hb, Hvi, Et. reflexivity. }
  destruct (Z.eqb_spec (fsub x y) 0) as [C|C].
  - assert (D : eqp (x - y) 0) by (rewrite <- C; now feq).
    assert (T0 : eqp (rho t) 0) by (rewrite Et, D; ering).
    apply awp_bind_nil. astep. { lcs. rewrite Ha, Hb, D. ering. }
    apply awp_bind_nil. astep. { lcs. rewrite Ha, Hb, D. ering. }
    apply awp_bind_nil. astep. { lcs. rewrite T0, one, Er, Hxy. cbn [Z.b2z]. ering. }
    astep. exact HQ.
  - specialize (Hi C). rewrite Hi in Et.
    apply awp_bind_nil. astep. { lcs. rewrite Et, one. ering. }
    apply awp_bind_nil. astep. { lcs. rewrite Er, Hxy. cbn [Z.b2z]. ering. }
    apply awp_bind_nil. astep. { lcs. rewrite Et, one. ering. }
    astep. exact HQ.
Qed.

(** The two intermediate values are not tied to the operands. *)
Definition cmp_aux (x : bool) : list Z := [0] ++ [Z.b2z (negb x)] ++ eq_aux 0 (Z.b2z (negb x)).
Lemma cmp_awp md (w1 : res Z) (w2 : option Z -> res Z) nm1 nm2 nm3 x : md <> Honest ->
  awp md rho (let! z := unwrap_prog (ns nm1 (an_alloc w1)) in
              let! nb := unwrap_prog (ns nm2 (an_alloc (w2 (an_val z)))) in ns nm3 (equals z nb))
    (cmp_aux x) (fun r => wire_bool rho r x).
Proof.
  intros Hmd. unfold cmp_aux. apply awp_bind. do 2 astep. apply an_alloc_awp; [contradiction|]. intros z vz Hz _.
  apply awp_bind. do 2 astep. apply an_alloc_awp; [contradiction|]. intros nb vnb Hnb _. astep.
  eapply awp_mono; [apply (equals_awp md _ _ 0 (Z.b2z (negb x))); auto; cbn [an_var]|].
  - now rewrite Hz.
  - now rewrite Hnb.
  - apply canon_0.
  - apply b2z_canon.
  - cbv beta. intros r [Hr _]. now destruct x.
Qed.
Lemma less_than_awp md a b n x : md <> Honest -> awp md rho (less_than a b n) (cmp_aux x) (fun r => wire_bool rho r x).
Proof. intros Hmd. unfold less_than. apply (cmp_awp md _ (fun v => low_bits v n)). auto. Qed.
Lemma leq_awp md a b n x : md <> Honest -> awp md rho (leq a b n) (cmp_aux x) (fun r => wire_bool rho r x).
Proof. intros Hmd. unfold leq. apply (cmp_awp md _ (fun v => low_bits v n)). auto. Qed.

End Rho.
End Median.
