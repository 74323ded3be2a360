(** Positional values, sums and bits of integers. *)
From Coq Require Import ZArith Bool List Lia ZifyBool ZifyNat.
From Verif.Spec Require Import Spec.
Import ListNotations.
Local Open Scope Z_scope.

Lemma pow2_pos (n : nat) : 0 < 2 ^ Z.of_nat n.
Proof. apply Z.pow_pos_nonneg; lia. Qed.
Lemma pow2_S (n : nat) : 2 ^ Z.of_nat (S n) = 2 * 2 ^ Z.of_nat n.
Proof. rewrite Nat2Z.inj_succ, Z.pow_succ_r; lia. Qed.
Lemma pow_S (B : Z) (n : nat) : B ^ Z.of_nat (S n) = B * B ^ Z.of_nat n.
Proof. rewrite Nat2Z.inj_succ, Z.pow_succ_r; lia. Qed.
Lemma pow2_add (a b : nat) : 2 ^ Z.of_nat (a + b) = 2 ^ Z.of_nat a * 2 ^ Z.of_nat b.
Proof. rewrite Nat2Z.inj_add, Z.pow_add_r; lia. Qed.
Lemma pow_add (B : Z) (a b : nat) : B ^ Z.of_nat (a + b) = B ^ Z.of_nat a * B ^ Z.of_nat b.
Proof. rewrite Nat2Z.inj_add, Z.pow_add_r; lia. Qed.
Lemma pow2_mul (a b : nat) : 2 ^ Z.of_nat (a * b) = (2 ^ Z.of_nat a) ^ Z.of_nat b.
Proof. rewrite Nat2Z.inj_mul, Z.pow_mul_r; lia. Qed.
Lemma pow2_le (a b : nat) : (a <= b)%nat -> 2 ^ Z.of_nat a <= 2 ^ Z.of_nat b.
Proof. intros; apply Z.pow_le_mono_r; lia. Qed.
Lemma pow2_lt (a b : nat) : (a < b)%nat -> 2 ^ Z.of_nat a < 2 ^ Z.of_nat b.
Proof. intros; apply Z.pow_lt_mono_r; lia. Qed.
Lemma pow2_ge1 (n : nat) : 1 <= 2 ^ Z.of_nat n.
Proof. pose proof (pow2_pos n); lia. Qed.

Lemma value_of_app B l1 l2 :
  value_of B (l1 ++ l2) = value_of B l1 + B ^ Z.of_nat (length l1) * value_of B l2.
Proof.
  induction l1 as [|d l1 IH].
  - cbn [app length value_of]. change (B ^ Z.of_nat 0) with 1. ring.
  - cbn [app length value_of]. rewrite pow_S, IH. ring.
Qed.

Lemma value_of_nonneg B l : 0 <= B -> Forall (fun d => 0 <= d) l -> 0 <= value_of B l.
Proof. intros HB. induction 1; simpl; nia. Qed.

Lemma value_of_bound B l : 0 < B -> Forall (fun d => 0 <= d < B) l ->
  0 <= value_of B l < B ^ Z.of_nat (length l).
Proof.
  intros HB. induction 1 as [|d l Hd _ IH]; simpl length.
  - change (B ^ Z.of_nat 0) with 1. simpl; lia.
  - rewrite pow_S. simpl. nia.
Qed.

Lemma value_of_le B M l : 0 <= B -> 0 <= M -> Forall (fun d => 0 <= d <= M) l ->
  value_of B l <= M * value_of B (repeat 1 (length l)).
Proof.
  intros HB HM. induction 1 as [|d l Hd _ IH]; cbn [length repeat value_of]; [lia|].
  apply (Z.mul_le_mono_nonneg_l _ _ B) in IH; auto.
  set (V := value_of B (repeat 1 (length l))) in *.
  replace (M * (1 + B * V)) with (M + B * (M * V)) by ring. lia.
Qed.

Lemma value_of_inj B : 0 < B -> forall l1 l2, length l1 = length l2 ->
  Forall (fun d => 0 <= d < B) l1 -> Forall (fun d => 0 <= d < B) l2 ->
  value_of B l1 = value_of B l2 -> l1 = l2.
Proof.
  intros HB. induction l1 as [|a l1 IH]; destruct l2 as [|b l2]; simpl; try discriminate; auto.
  intros HL H1 H2 HV. inversion H1; inversion H2; subst.
  assert (a = b).
  { assert (Ha : (a + B * value_of B l1) mod B = a).
    { rewrite Z.mul_comm, Z_mod_plus_full, Z.mod_small; auto. }
    assert (Hb : (b + B * value_of B l2) mod B = b).
    { rewrite Z.mul_comm, Z_mod_plus_full, Z.mod_small; auto. }
    congruence. }
  subst. f_equal. apply IH; auto; nia.
Qed.

Lemma value_of_zeros B n : value_of B (repeat 0 n) = 0.
Proof. induction n; simpl; rewrite ?IHn; ring. Qed.

Lemma value_of_ext B (f g : nat -> Z) l : (forall i, In i l -> f i = g i) ->
  value_of B (map f l) = value_of B (map g l).
Proof. intros H. f_equal. apply map_ext_in. auto. Qed.

(** ** Sums *)
Lemma sum_n_ext n f g : (forall i, (i < n)%nat -> f i = g i) -> sum_n n f = sum_n n g.
Proof. induction n; intros H; simpl; auto. rewrite IHn, H; auto. Qed.
Lemma sum_n_S n f : sum_n (S n) f = f 0%nat + sum_n n (fun i => f (S i)).
Proof. induction n; [simpl; ring|]. change (sum_n (S (S n)) f) with (sum_n (S n) f + f (S n)).
  rewrite IHn. simpl. ring. Qed.
Lemma sum_n_scale n c f : c * sum_n n f = sum_n n (fun i => c * f i).
Proof. induction n; simpl; [ring|]. rewrite <- IHn. ring. Qed.
Lemma sum_n_add n f g : sum_n n f + sum_n n g = sum_n n (fun i => f i + g i).
Proof. induction n; simpl; [ring|]. rewrite <- IHn. ring. Qed.
Lemma sum_n_zero n : sum_n n (fun _ => 0) = 0.
Proof. induction n; simpl; rewrite ?IHn; ring. Qed.
Lemma sum_n_app a b f : sum_n (a + b) f = sum_n a f + sum_n b (fun i => f (a + i)%nat).
Proof.
  induction b; simpl.
  - rewrite Nat.add_0_r. ring.
  - rewrite Nat.add_succ_r. simpl. rewrite IHb. ring.
Qed.
Lemma sum_n_swap a b (f : nat -> nat -> Z) :
  sum_n a (fun i => sum_n b (fun j => f i j)) = sum_n b (fun j => sum_n a (fun i => f i j)).
Proof.
  induction a; simpl; [now rewrite sum_n_zero|]. rewrite IHa. apply sum_n_add.
Qed.
Lemma sum_n_le n f g : (forall i, (i < n)%nat -> f i <= g i) -> sum_n n f <= sum_n n g.
Proof. induction n; intros H; simpl; [lia|]. specialize (IHn ltac:(auto)).
  specialize (H n ltac:(lia)). lia. Qed.
Lemma sum_n_const n c : sum_n n (fun _ => c) = Z.of_nat n * c.
Proof. induction n; simpl sum_n; [ring|]. rewrite IHn, Nat2Z.inj_succ. ring. Qed.
Lemma sum_n_nonneg n f : (forall i, (i < n)%nat -> 0 <= f i) -> 0 <= sum_n n f.
Proof. intros H. rewrite <- (sum_n_zero n). now apply sum_n_le. Qed.

Lemma value_of_sum B l : value_of B l = sum_n (length l) (fun i => nth i l 0 * B ^ Z.of_nat i).
Proof.
  induction l as [|d l IH]; auto.
  cbn [length value_of]. rewrite sum_n_S. cbn [nth]. change (B ^ Z.of_nat 0) with 1.
  rewrite IH, sum_n_scale, Z.mul_1_r. f_equal. apply sum_n_ext. intros i _. rewrite pow_S. ring.
Qed.

(** ** Convolution *)
Lemma conv_nil_l b k : conv [] b k = 0.
Proof.
  unfold conv. rewrite (sum_n_ext _ _ (fun _ => 0)); [apply sum_n_zero|].
  intros [|i] _; simpl; ring.
Qed.
Lemma conv_cons a l b k : conv (a :: l) b k =
  a * nth k b 0 + match k with O => 0 | S k => conv l b k end.
Proof.
  unfold conv. rewrite sum_n_S. rewrite Nat.sub_0_r.
  replace (nth 0 (a :: l) 0) with a by reflexivity. f_equal. destruct k; auto.
Qed.
Lemma conv_high : forall a b k, (length a + length b <= S k)%nat -> conv a b k = 0.
Proof.
  induction a as [|x a IH]; intros b k Hk.
  - apply conv_nil_l.
  - rewrite conv_cons. simpl in Hk. rewrite nth_overflow by lia.
    destruct k; [ring|]. rewrite IH by lia. ring.
Qed.

(** Evaluating the convolution gives the product. *)
Lemma value_of_conv B : forall a b n, (length a + length b <= S n)%nat ->
  value_of B (map (conv a b) (seq 0 n)) = value_of B a * value_of B b.
Proof.
  induction a as [|x a IH]; intros b n Hn.
  - rewrite (value_of_ext _ _ (fun _ => 0)) by (intros; apply conv_nil_l).
    replace (map (fun _ : nat => 0) (seq 0 n)) with (repeat 0 n).
    + rewrite value_of_zeros. simpl; ring.
    + clear. generalize 0%nat. induction n; intros; simpl; f_equal; auto.
  - simpl in Hn.
    rewrite (value_of_ext _ _ (fun k => x * nth k b 0 + match k with O => 0 | S k => conv a b k end))
      by (intros; apply conv_cons).
    transitivity (x * value_of B b + B * (value_of B a * value_of B b)); [|simpl; ring].
    destruct n as [|n].
    { assert (a = []) by (destruct a; auto; simpl in Hn; lia).
      assert (b = []) by (destruct b; auto; simpl in Hn; lia). subst. simpl. ring. }
    rewrite <- (IH b n) by lia.
    assert (G : forall (h : nat -> Z) m o, value_of B (map (fun k => x * nth k b 0 + h k) (seq o m)) =
        x * value_of B (map (fun k => nth k b 0) (seq o m)) + value_of B (map h (seq o m))).
    { intros h m. induction m; intros o; simpl; [ring|]. rewrite IHm. ring. }
    rewrite (G (fun k => match k with O => 0 | S k => conv a b k end)).
    f_equal.
    + f_equal. rewrite !value_of_sum, map_length, seq_length.
      replace (S n) with (length b + (S n - length b))%nat by lia.
      rewrite sum_n_app. rewrite (sum_n_ext (S n - length b) _ (fun _ => 0)).
      * rewrite sum_n_zero, Z.add_0_r. apply sum_n_ext. intros i Hi.
        rewrite (nth_indep _ 0 (nth 0 b 0)) by (rewrite map_length, seq_length; lia).
        rewrite (map_nth (fun k => nth k b 0)), seq_nth by lia. reflexivity.
      * intros i Hi. rewrite (nth_indep _ 0 (nth 0 b 0)) by (rewrite map_length, seq_length; lia).
        rewrite (map_nth (fun k => nth k b 0)), seq_nth by lia.
        simpl. rewrite nth_overflow by lia. ring.
    + cbn [seq map value_of]. rewrite <- seq_shift, map_map, Z.add_0_l. reflexivity.
Qed.

(** ** Bits *)
Lemma b2z_range b : 0 <= Z.b2z b < 2.
Proof. destruct b; simpl; lia. Qed.
Lemma bits_value_bound l : 0 <= bits_value l < 2 ^ Z.of_nat (length l).
Proof.
  unfold bits_value. rewrite <- (map_length Z.b2z l). apply value_of_bound; [lia|].
  apply Forall_map. apply Forall_forall. intros; apply b2z_range.
Qed.
Lemma bits_value_inj l1 l2 : length l1 = length l2 -> bits_value l1 = bits_value l2 -> l1 = l2.
Proof.
  revert l2. induction l1 as [|a l1 IH]; destruct l2 as [|b l2]; simpl; try discriminate; auto.
  intros HL HV. unfold bits_value in *. cbn [map value_of] in HV.
  assert (a = b) by (destruct a, b; cbn [Z.b2z] in HV; auto; lia). subst.
  f_equal. apply IH; auto. lia.
Qed.

Lemma testbits_value v : forall n o, 0 <= v ->
  bits_value (map (fun i => Z.testbit v (Z.of_nat i)) (seq o n)) =
  (v / 2 ^ Z.of_nat o) mod 2 ^ Z.of_nat n.
Proof.
  induction n as [|n IH]; intros o Hv.
  - simpl. change (2 ^ Z.of_nat 0) with 1. now rewrite Z.mod_1_r.
  - cbn [seq map]. unfold bits_value in *. cbn [map value_of]. rewrite IH by auto.
    rewrite !pow2_S. pose proof (pow2_pos o). pose proof (pow2_pos n).
    rewrite Z.testbit_spec' by lia.
    rewrite (Z.mul_comm 2 (2 ^ Z.of_nat o)), <- Z.div_div by lia.
    set (q := v / 2 ^ Z.of_nat o).
    rewrite Z.rem_mul_r by lia. reflexivity.
Qed.
Lemma testbits_value_0 v n : 0 <= v ->
  bits_value (map (fun i => Z.testbit v (Z.of_nat i)) (seq 0 n)) = v mod 2 ^ Z.of_nat n.
Proof.
  intros H. rewrite testbits_value by auto. change (2 ^ Z.of_nat 0) with 1. now rewrite Z.div_1_r.
Qed.

Lemma value_of_scale B c l : value_of B (map (fun d => c * d) l) = c * value_of B l.
Proof. induction l; simpl; [ring|]. rewrite IHl. ring. Qed.

Lemma value_of_sum_nth B (f : nat -> Z) n :
  value_of B (map f (seq 0 n)) = sum_n n (fun i => f i * B ^ Z.of_nat i).
Proof.
  rewrite value_of_sum, map_length, seq_length. apply sum_n_ext. intros i Hi.
  rewrite (nth_indep _ 0 (f 0%nat)) by (rewrite map_length, seq_length; lia).
  rewrite map_nth, seq_nth by lia. reflexivity.
Qed.

(** ** Lists *)
Lemma flat_map_nil {A B} (l : list A) : flat_map (fun _ => @nil B) l = [].
Proof. induction l; simpl; auto. Qed.
Lemma Forall2_length {A B} (R : A -> B -> Prop) l1 l2 : Forall2 R l1 l2 -> length l1 = length l2.
Proof. induction 1; simpl; congruence. Qed.
Lemma Forall2_nth {A B} (R : A -> B -> Prop) l1 l2 : Forall2 R l1 l2 ->
  forall i d1 d2, (i < length l1)%nat -> R (nth i l1 d1) (nth i l2 d2).
Proof.
  induction 1; intros i d1 d2 Hi; simpl in *; [lia|]. destruct i; auto. apply IHForall2. lia.
Qed.
Lemma nth_Forall2 {A B} (R : A -> B -> Prop) d1 d2 l1 : forall l2, length l1 = length l2 ->
  (forall i, (i < length l1)%nat -> R (nth i l1 d1) (nth i l2 d2)) -> Forall2 R l1 l2.
Proof.
  induction l1 as [|a l1 IH]; intros [|b l2] HL H; simpl in *; try discriminate; constructor.
  - apply (H 0%nat). lia.
  - apply IH; auto. intros i Hi. apply (H (S i)). lia.
Qed.
Lemma combine_seq_nth {A} (x : A) : forall (l : list A) j o, nth_error l j = Some x ->
  nth_error (combine (seq o (length l)) l) j = Some ((o + j)%nat, x).
Proof.
  induction l as [|y l IH]; intros [|j] o Hj; simpl in *; try discriminate.
  - injection Hj as ->. now rewrite Nat.add_0_r.
  - rewrite (IH j (S o)) by auto. now rewrite Nat.add_succ_r.
Qed.
Lemma combine_seq_in {A} (l : list A) : forall o i x, In (i, x) (combine (seq o (length l)) l) ->
  (o <= i < o + length l)%nat /\ nth_error l (i - o) = Some x.
Proof.
  induction l as [|y l IH]; intros o i x H; simpl in *; [tauto|]. destruct H as [H|H].
  - injection H as <- <-. rewrite Nat.sub_diag. split; [lia|reflexivity].
  - apply IH in H. destruct H as [H1 H2]. split; [lia|].
    replace (i - o)%nat with (S (i - S o)) by lia. exact H2.
Qed.
