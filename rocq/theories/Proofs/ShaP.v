(** The table-driven SHA-256 of the model is the one of FIPS 180-4. *)
From Coq Require Import ZArith Znumtheory Bool List Lia ZifyBool ZifyNat Permutation.
From Verif.Model Require Import Base Sha256 CS Bellpepper Util Poly Bignat Ints Median Difficulty.
From Verif.Spec Require Import Spec SpecHeader SpecSha.
From Verif.Proofs Require Import Arith Prime HashP DifficultyEx.
Import ListNotations.
Local Open Scope Z_scope.

(** ** Words and numbers *)

Lemma bits_value_cons b l : bits_value (b :: l) = Z.b2z b + 2 * bits_value l.
Proof. reflexivity. Qed.

Lemma bits_value_bit l : forall i, (0 <= i) -> Z.testbit (bits_value l) i = nth (Z.to_nat i) l false.
Proof.
  induction l as [|b l IH]; intros i Hi.
  - rewrite Z.bits_0. now destruct (Z.to_nat i).
  - rewrite bits_value_cons, Z.add_comm.
    destruct (Z.eq_dec i 0) as [->|N].
    + rewrite Z.testbit_0_r. reflexivity.
    + replace i with (Z.succ (i - 1)) at 1 by lia. rewrite Z.testbit_succ_r by lia. rewrite IH by lia.
      replace (Z.to_nat i) with (S (Z.to_nat (i - 1))) by lia. reflexivity.
Qed.

Lemma num_bit w i : 0 <= i < Z.of_nat (length w) ->
  Z.testbit (num_of w) i = nth (length w - 1 - Z.to_nat i) w false.
Proof.
  intros Hi. unfold num_of. rewrite bits_value_bit by lia. rewrite rev_nth by lia. f_equal. lia.
Qed.

Lemma num_bound w : 0 <= num_of w < 2 ^ Z.of_nat (length w).
Proof. unfold num_of. rewrite <- (rev_length w). apply bits_value_bound. Qed.

Definition isw (w : word) (x : Z) : Prop := length w = 32%nat /\ num_of w = x.

Lemma isw_bound w x : isw w x -> 0 <= x < 2 ^ 32.
Proof. intros [L <-]. pose proof (num_bound w). rewrite L in H. exact H. Qed.

Lemma isw_bit w x i : isw w x -> (i < 32)%nat -> nth i w false = Z.testbit x (Z.of_nat (31 - i)).
Proof. intros [L <-] Hi. rewrite num_bit by lia. f_equal. lia. Qed.

Lemma above x i : 0 <= x < 2 ^ 32 -> 32 <= i -> Z.testbit x i = false.
Proof.
  intros Hx Hi. destruct (Z.eq_dec x 0) as [->|N]; [apply Z.bits_0|].
  apply Z.bits_above_log2; [lia|]. enough (Z.log2 x < 32) by lia. apply Z.log2_lt_pow2; lia.
Qed.

Lemma isw_intro w x : length w = 32%nat -> (forall i, (i < 32)%nat -> nth i w false = Z.testbit x (Z.of_nat (31 - i))) ->
  (forall i, 32 <= i -> Z.testbit x i = false) -> isw w x.
Proof.
  intros L H B. split; auto. apply Z.bits_inj'. intros i Hi.
  destruct (Z_lt_le_dec i 32) as [C|C].
  - rewrite num_bit by lia. rewrite H by lia. f_equal. lia.
  - rewrite B by lia. apply above; auto. pose proof (num_bound w). rewrite L in H0. exact H0.
Qed.

Lemma isw_map f x : (forall i, (i < 32)%nat -> f i = Z.testbit x (Z.of_nat (31 - i))) ->
  (forall i, 32 <= i -> Z.testbit x i = false) -> isw (map f (seq 0 32)) x.
Proof.
  intros H B. apply isw_intro; [now rewrite map_length, seq_length| |exact B].
  intros i Hi. rewrite (nth_indep _ false (f 0%nat)) by (rewrite map_length, seq_length; lia).
  rewrite map_nth, seq_nth by lia. apply H. lia.
Qed.

Lemma w32_bit x i : 0 <= i < 32 -> Z.testbit (w32 x) i = Z.testbit x i.
Proof. intros. unfold w32. change 4294967296 with (2 ^ 32). apply Z.mod_pow2_bits_low. lia. Qed.
Lemma w32_high x i : 32 <= i -> Z.testbit (w32 x) i = false.
Proof. intros. unfold w32. change 4294967296 with (2 ^ 32). apply Z.mod_pow2_bits_high. lia. Qed.

Lemma isw_bits_of x : isw (bits_of 32 x) (w32 x).
Proof.
  apply isw_map; intros i Hi.
  - rewrite w32_bit by lia. reflexivity.
  - now apply w32_high.
Qed.

Lemma isw_plus a b x y : isw a x -> isw b y -> isw (plus a b) (add32 x y).
Proof. intros [_ <-] [_ <-]. apply isw_bits_of. Qed.

Lemma firstn_nth {A} (l : list A) d : forall n i, (i < n)%nat -> nth i (firstn n l) d = nth i l d.
Proof. induction l as [|a l IH]; intros [|n] [|i] H; cbn; try reflexivity; try lia. apply IH. lia. Qed.
Lemma skipn_nth {A} (l : list A) d : forall n i, nth i (skipn n l) d = nth (n + i) l d.
Proof. induction l as [|a l IH]; intros [|n] i; cbn; try reflexivity. now destruct i. apply IH. Qed.

Lemma isw_rotate n w x : (0 < n < 32)%nat -> isw w x -> isw (rotate n w) (rotr (Z.of_nat n) x).
Proof.
  intros Hn Hw. pose proof (isw_bound _ _ Hw) as Hx. destruct Hw as [L E0].
  assert (Hw : isw w x) by (split; auto).
  unfold rotate, rotr. apply isw_intro.
  - rewrite app_length, skipn_length, firstn_length, L. lia.
  - intros i Hi. rewrite Z.lor_spec, Z.shiftr_spec by lia.
    destruct (Nat.lt_ge_cases i n) as [C|C].
    + rewrite app_nth1 by (rewrite skipn_length; lia). rewrite skipn_nth, (isw_bit _ x) by (auto; lia).
      rewrite (above x (Z.of_nat (31 - i) + Z.of_nat n)) by (auto; lia). rewrite w32_bit by lia.
      rewrite Z.shiftl_spec by lia. cbn [orb]. f_equal. lia.
    + rewrite app_nth2 by (rewrite skipn_length; lia). rewrite skipn_length, L.
      rewrite firstn_nth by lia. rewrite (isw_bit _ x) by (auto; lia).
      rewrite w32_bit by lia. rewrite Z.shiftl_spec by lia.
      rewrite (Z.testbit_neg_r x (Z.of_nat (31 - i) - _)) by lia. rewrite orb_false_r. f_equal. lia.
  - intros i Hi. rewrite Z.lor_spec, w32_high by lia. rewrite Z.shiftr_spec by lia. now rewrite above by (auto; lia).
Qed.

Lemma isw_shift n w x : (n < 32)%nat -> isw w x -> isw (shift n w) (shr32 (Z.of_nat n) x).
Proof.
  intros Hn Hw. pose proof (isw_bound _ _ Hw) as Hx. assert (L : length w = 32%nat) by apply Hw.
  unfold shift, shr32. apply isw_intro.
  - rewrite app_length, repeat_length, firstn_length, L. lia.
  - intros i Hi. rewrite Z.shiftr_spec by lia. destruct (Nat.lt_ge_cases i n) as [C|C].
    + rewrite app_nth1 by (rewrite repeat_length; lia). rewrite nth_repeat. symmetry. apply above; lia.
    + rewrite app_nth2 by (rewrite repeat_length; lia). rewrite repeat_length, firstn_nth by lia.
      rewrite (isw_bit _ x) by (auto; lia). f_equal. lia.
  - intros i Hi. rewrite Z.shiftr_spec by lia. apply above; lia.
Qed.

Lemma isw_bitwise3 f a b c x y z r : isw a x -> isw b y -> isw c z ->
  (forall i, 0 <= i < 32 -> Z.testbit r i = f (Z.testbit x i) (Z.testbit y i) (Z.testbit z i)) ->
  (forall i, 32 <= i -> Z.testbit r i = false) -> isw (bitwise3 f a b c) r.
Proof.
  intros Ha Hb Hc H B. apply isw_map; auto. intros i Hi.
  rewrite (isw_bit _ _ _ Ha), (isw_bit _ _ _ Hb), (isw_bit _ _ _ Hc) by lia. symmetry. apply H. lia.
Qed.

Lemma isw_xor3 a b c x y z : isw a x -> isw b y -> isw c z -> isw (xor3 a b c) (Z.lxor (Z.lxor x y) z).
Proof.
  intros Ha Hb Hc. eapply isw_bitwise3; eauto.
  - intros i Hi. rewrite !Z.lxor_spec. now rewrite xorb_assoc.
  - intros i Hi. rewrite !Z.lxor_spec. now rewrite !above by (eauto using isw_bound; lia).
Qed.

Lemma not32_bit x i : 0 <= x < 2 ^ 32 -> 0 <= i < 32 -> Z.testbit (not32 x) i = negb (Z.testbit x i).
Proof.
  intros Hx Hi. replace (not32 x) with (Z.lnot x mod 2 ^ 32).
  - rewrite Z.mod_pow2_bits_low by lia. apply Z.lnot_spec. lia.
  - unfold not32. rewrite <- (Z_mod_plus_full _ 1). unfold Z.lnot. rewrite Z.mod_small by lia. lia.
Qed.

Lemma isw_choose a b c x y z : isw a x -> isw b y -> isw c z -> isw (choose a b c) (Ch x y z).
Proof.
  intros Ha Hb Hc. eapply isw_bitwise3; eauto; unfold Ch.
  - intros i Hi. rewrite Z.lxor_spec, !Z.land_spec, not32_bit by (eauto using isw_bound).
    destruct (Z.testbit x i), (Z.testbit y i), (Z.testbit z i); reflexivity.
  - intros i Hi. rewrite Z.lxor_spec, !Z.land_spec. rewrite (above y), (above z) by (eauto using isw_bound; lia).
    now rewrite !andb_false_r.
Qed.

Lemma isw_majority a b c x y z : isw a x -> isw b y -> isw c z -> isw (majority a b c) (Maj x y z).
Proof.
  intros Ha Hb Hc. eapply isw_bitwise3; eauto; unfold Maj.
  - intros i Hi. rewrite !Z.lxor_spec, !Z.land_spec.
    destruct (Z.testbit x i), (Z.testbit y i), (Z.testbit z i); reflexivity.
  - intros i Hi. rewrite !Z.lxor_spec, !Z.land_spec. now rewrite !above by (eauto using isw_bound; lia).
Qed.

Lemma isw_big0 w x : isw w x -> isw (big0 w) (Sig0 x).
Proof. intros H. apply isw_xor3; [apply (isw_rotate 2)|apply (isw_rotate 13)|apply (isw_rotate 22)]; auto; lia. Qed.
Lemma isw_big1 w x : isw w x -> isw (big1 w) (Sig1 x).
Proof. intros H. apply isw_xor3; [apply (isw_rotate 6)|apply (isw_rotate 11)|apply (isw_rotate 25)]; auto; lia. Qed.
Lemma isw_small0 w x : isw w x -> isw (small0 w) (sig0 x).
Proof. intros H. apply isw_xor3; [apply (isw_rotate 7)|apply (isw_rotate 18)|apply (isw_shift 3)]; auto; lia. Qed.
Lemma isw_small1 w x : isw w x -> isw (small1 w) (sig1 x).
Proof. intros H. apply isw_xor3; [apply (isw_rotate 17)|apply (isw_rotate 19)|apply (isw_shift 10)]; auto; lia. Qed.

Lemma add32_assoc a b c : add32 (add32 a b) c = add32 a (add32 b c).
Proof. unfold add32, w32. rewrite Zplus_mod_idemp_l, Zplus_mod_idemp_r. f_equal. lia. Qed.

(** ** The schedule *)

Lemma schedule_fuel M : forall f t, (t < f)%nat -> schedule_upto f M t = schedule_word M t.
Proof.
  enough (H : forall t f g, (t < f)%nat -> (t < g)%nat -> schedule_upto f M t = schedule_upto g M t).
  { intros f t Ht. apply H; lia. }
  induction t as [t IH] using (well_founded_induction Wf_nat.lt_wf). intros [|f] [|g] Hf Hg; try lia.
  cbn [schedule_upto]. destruct (Nat.ltb_spec t 16); auto.
  rewrite (IH (t - 2)%nat ltac:(lia) f g), (IH (t - 7)%nat ltac:(lia) f g), (IH (t - 15)%nat ltac:(lia) f g), (IH (t - 16)%nat ltac:(lia) f g) by lia. reflexivity.
Qed.

Lemma schedule_rec M t : (16 <= t)%nat -> schedule_word M t =
  plus (plus (plus (small1 (schedule_word M (t - 2))) (schedule_word M (t - 7)))
             (small0 (schedule_word M (t - 15)))) (schedule_word M (t - 16)).
Proof.
  intros H. unfold schedule_word at 1. cbn [schedule_upto]. destruct (Nat.ltb_spec t 16); [lia|].
  rewrite !schedule_fuel by lia. reflexivity.
Qed.

Lemma schedule_isw M : (forall j, (j < 16)%nat -> length (M j) = 32%nat) ->
  forall t, isw (schedule_word M t) (num_of (schedule_word M t)).
Proof.
  intros H t. split; auto. destruct (Nat.lt_ge_cases t 16) as [C|C].
  - unfold schedule_word. cbn [schedule_upto]. destruct (Nat.ltb_spec t 16); [auto|lia].
  - rewrite schedule_rec by auto. unfold plus, bits_of. now rewrite map_length, seq_length.
Qed.

Lemma schedule_num M t : (forall j, (j < 16)%nat -> length (M j) = 32%nat) -> (16 <= t)%nat ->
  let W t := num_of (schedule_word M t) in
  W t = add32 (add32 (sig1 (W (t - 2)%nat)) (W (t - 7)%nat)) (add32 (sig0 (W (t - 15)%nat)) (W (t - 16)%nat)).
Proof.
  intros H Ht W. unfold W at 1. rewrite schedule_rec by auto.
  pose proof (schedule_isw M H) as HW. fold W in HW. rewrite <- add32_assoc.
  apply (isw_plus _ _ _ _ (isw_plus _ _ _ _ (isw_plus _ _ _ _ (isw_small1 _ _ (HW (t - 2)%nat)) (HW (t - 7)%nat)) (isw_small0 _ _ (HW (t - 15)%nat))) (HW (t - 16)%nat)).
Qed.

Lemma nth_rev_map (W : nat -> Z) t k : (k < t)%nat -> nth k (rev (map W (seq 0 t))) 0 = W (t - 1 - k)%nat.
Proof.
  intros H. rewrite rev_nth by (rewrite map_length, seq_length; lia). rewrite map_length, seq_length.
  rewrite (nth_indep _ 0 (W 0%nat)) by (rewrite map_length, seq_length; lia). rewrite map_nth, seq_nth by lia. f_equal. lia.
Qed.

Lemma schedule_spec W : (forall t, (16 <= t)%nat ->
    W t = add32 (add32 (sig1 (W (t - 2)%nat)) (W (t - 7)%nat)) (add32 (sig0 (W (t - 15)%nat)) (W (t - 16)%nat))) ->
  forall n t, (16 <= t)%nat -> schedule n (rev (map W (seq 0 t))) = rev (map W (seq 0 (t + n))).
Proof.
  intros H. induction n as [|n IH]; intros t Ht; cbn [schedule]. { now rewrite Nat.add_0_r. }
  rewrite !nth_rev_map by lia.
  replace (t + S n)%nat with (S t + n)%nat by lia. rewrite <- IH by lia. f_equal.
  rewrite seq_S, map_app, rev_app_distr. cbn [map rev app]. f_equal. rewrite (H (0 + t)%nat) by lia.
  replace (0 + t - 2)%nat with (t - 1 - 1)%nat by lia. replace (0 + t - 7)%nat with (t - 1 - 6)%nat by lia.
  replace (0 + t - 15)%nat with (t - 1 - 14)%nat by lia. replace (0 + t - 16)%nat with (t - 1 - 15)%nat by lia. reflexivity.
Qed.

(** ** Rounds *)

Definition isv (v : vars) (l : list Z) : Prop :=
  let '(a, b, c, d, e, f, g, h) := v in
  exists x0 x1 x2 x3 x4 x5 x6 x7, l = [x0; x1; x2; x3; x4; x5; x6; x7] /\
    isw a x0 /\ isw b x1 /\ isw c x2 /\ isw d x3 /\ isw e x4 /\ isw f x5 /\ isw g x6 /\ isw h x7.

Lemma isw_eq w x y : isw w x -> x = y -> isw w y.
Proof. now intros ? ->. Qed.

Lemma isv_step K W v l k w : isv v l -> isw K k -> isw W w -> isv (step K W v) (round l (k, w)).
Proof.
  destruct v as [[[[[[[a b] c] d] e] f] g] h].
  intros (x0 & x1 & x2 & x3 & x4 & x5 & x6 & x7 & -> & ? & ? & ? & ? & ? & ? & ? & ?) HK HW.
  cbn [step isv round fst snd].
  assert (HT1 : isw (plus (plus (plus (plus h (big1 e)) (choose e f g)) K) W)
                   (add32 (add32 (add32 x7 (Sig1 x4)) (add32 (Ch x4 x5 x6) k)) w)).
  { rewrite <- add32_assoc. auto 10 using isw_plus, isw_big1, isw_choose. }
  do 8 eexists. split; [reflexivity|].
  repeat match goal with |- _ /\ _ => split end; auto using isw_plus, isw_big0, isw_majority.
Qed.

Lemma isv_steps K W k w v l : isv v l -> forall t,
  (forall i, (i < t)%nat -> isw (K i) (k i)) -> (forall i, (i < t)%nat -> isw (W i) (w i)) ->
  isv (steps K W t v) (fold_left round (map (fun i => (k i, w i)) (seq 0 t)) l).
Proof.
  intros H. induction t as [|t IH]; intros HK HW; auto.
  rewrite seq_S, map_app, fold_left_app. cbn [map fold_left steps]. apply isv_step; auto.
Qed.

Lemma isv_plus v u l r : isv v l -> isv u r -> isv (vars_plus v u) (map (fun p => add32 (fst p) (snd p)) (combine r l)).
Proof.
  destruct v as [[[[[[[a b] c] d] e] f] g] h]. destruct u as [[[[[[[a' b'] c'] d'] e'] f'] g'] h'].
  intros (x0 & x1 & x2 & x3 & x4 & x5 & x6 & x7 & -> & ? & ? & ? & ? & ? & ? & ? & ?).
  intros (y0 & y1 & y2 & y3 & y4 & y5 & y6 & y7 & -> & ? & ? & ? & ? & ? & ? & ? & ?).
  cbn [vars_plus isv combine map fst snd]. do 8 eexists. split; [reflexivity|].
  assert (C : forall x y, add32 x y = add32 y x) by (intros; unfold add32; f_equal; lia).
  repeat match goal with |- _ /\ _ => split end; rewrite C; auto using isw_plus.
Qed.

Lemma combine_map {A B C} (f : A -> B) (g : A -> C) l : combine (map f l) (map g l) = map (fun i => (f i, g i)) l.
Proof. induction l; cbn; congruence. Qed.

Lemma isv_compress K M v l k : isv v l -> (forall i, (i < 64)%nat -> isw (K i) (k i)) -> K256 = map k (seq 0 64) ->
  (forall j, (j < 16)%nat -> length (M j) = 32%nat) ->
  isv (vars_plus (steps K (schedule_word M) 64 v) v) (compress l (map (fun j => num_of (M j)) (seq 0 16))).
Proof.
  intros Hv HK EK HM. unfold compress. apply isv_plus; auto. rewrite EK.
  set (W := fun t => num_of (schedule_word M t)).
  replace (map (fun j => num_of (M j)) (seq 0 16)) with (map W (seq 0 16)) by reflexivity.
  rewrite (schedule_spec W) by (try lia; intros; now apply schedule_num).
  rewrite rev_involutive, combine_map. apply isv_steps; auto. intros i _. now apply schedule_isw.
Qed.

(** ** Blocks *)

Lemma skipn_skipn' {A} n : forall m (l : list A), skipn n (skipn m l) = skipn (m + n) l.
Proof. induction m as [|m IH]; intros [|a l]; cbn; auto. now destruct n. Qed.

Lemma chunks_spec {A} n : (0 < n)%nat -> forall m fuel (l : list A), length l = (n * m)%nat -> (m <= fuel)%nat ->
  chunks fuel n l = map (fun i => firstn n (skipn (n * i) l)) (seq 0 m).
Proof.
  intros Hn. induction m as [|m IH]; intros fuel l L Hf.
  - destruct l; [now destruct fuel|cbn in L; lia].
  - destruct fuel as [|fuel]; [lia|]. destruct l as [|a l]; [cbn in L; lia|].
    cbn [chunks]. rewrite (IH fuel (skipn n (a :: l))) by (try lia; rewrite skipn_length; lia).
    cbn [seq map]. rewrite Nat.mul_0_r. cbn [skipn]. f_equal. rewrite <- seq_shift, map_map.
    apply map_ext. intros i. rewrite skipn_skipn'. do 2 f_equal. lia.
Qed.

Lemma skipn_firstn {A} : forall n m (l : list A), skipn n (firstn m l) = firstn (m - n) (skipn n l).
Proof. induction n as [|n IH]; intros [|m] [|a l]; cbn; auto. now rewrite firstn_nil. Qed.

Lemma bits_to_Z_num w : bits_to_Z w = num_of w.
Proof.
  unfold bits_to_Z, num_of. induction w as [|b w IH] using rev_ind; auto.
  rewrite fold_left_app, rev_app_distr. cbn [fold_left rev app]. rewrite bits_value_cons, IH. lia.
Qed.

Lemma block_words p i n : length p = (512 * n)%nat -> (i < n)%nat ->
  map bits_to_Z (chunks 16 32 (firstn 512 (skipn (512 * i) p))) = map (fun j => num_of (block_word p i j)) (seq 0 16).
Proof.
  intros L Hi. rewrite (chunks_spec 32 ltac:(lia) 16) by (try lia; rewrite firstn_length, skipn_length; lia).
  rewrite map_map. apply map_ext_in. intros j Hj. apply in_seq in Hj. rewrite bits_to_Z_num. f_equal.
  rewrite skipn_firstn, firstn_firstn, skipn_skipn'. unfold block_word. f_equal. lia.
Qed.

Lemma block_word_length p i n j : length p = (512 * n)%nat -> (i < n)%nat -> (j < 16)%nat -> length (block_word p i j) = 32%nat.
Proof. intros. unfold block_word. rewrite firstn_length, skipn_length. lia. Qed.

Lemma isv_chain K H p n k : length p = (512 * n)%nat -> (forall i, (i < 64)%nat -> isw (K i) (k i)) -> K256 = map k (seq 0 64) ->
  isv (chain K H p 0) H0 -> forall m, (m <= n)%nat ->
  isv (chain K H p m) (fold_left (fun h b => compress h (map bits_to_Z (chunks 16 32 b)))
     (map (fun i => firstn 512 (skipn (512 * i) p)) (seq 0 m)) H0).
Proof.
  intros L HK EK HH. induction m as [|m IH]; intros Hm; auto.
  rewrite seq_S, map_app, fold_left_app. cbn [map fold_left]. rewrite (block_words p _ n) by (auto; lia).
  cbn [chain]. apply (isv_compress _ _ _ _ k); auto. { apply IH. lia. }
  intros j Hj. apply (block_word_length p m n); auto.
Qed.

(** ** Padding *)

Lemma Z_to_bits_of n x : Z_to_bits n x = bits_of n x.
Proof.
  unfold bits_of. induction n as [|n IH]; auto. cbn [Z_to_bits seq map]. f_equal. { do 2 f_equal. lia. }
  rewrite IH, <- seq_shift, map_map. apply map_ext_in. intros i Hi. apply in_seq in Hi. do 2 f_equal. lia.
Qed.

Lemma mod_nat a b q r : (r < b -> a = b * q + r -> a mod b = r)%nat.
Proof. intros. symmetry. now apply (Nat.mod_unique a b q r). Qed.

Lemma pad_count l k : (k < 512 -> (l + 1 + k) mod 512 = 448 -> (448 + 512 - (l + 1) mod 512) mod 512 = k)%nat.
Proof.
  intros Hk H. pose proof (Nat.div_mod (l + 1 + k) 512 ltac:(lia)) as D. rewrite H in D.
  pose proof (Nat.div_mod (l + 1) 512 ltac:(lia)) as D'.
  pose proof (Nat.mod_upper_bound (l + 1) 512 ltac:(lia)).
  set (q := ((l + 1 + k) / 512)%nat) in *. set (q' := ((l + 1) / 512)%nat) in *. set (r := ((l + 1) mod 512)%nat) in *.
  clearbody q q' r. destruct (Nat.le_gt_cases r 448).
  - destruct (Nat.eq_dec k (448 - r)%nat) as [->|N].
    + apply (mod_nat _ _ 1); lia.
    + exfalso. lia.
  - apply (mod_nat _ _ 0); lia.
Qed.

Lemma padding_pad m p : padding m p <-> p = pad m.
Proof.
  split.
  - intros (k & Hk & Hm & ->). unfold pad. rewrite (pad_count _ k Hk Hm), Z_to_bits_of. reflexivity.
  - intros ->. set (k := ((448 + 512 - (length m + 1) mod 512) mod 512)%nat).
    exists k. split; [|split].
    + apply Nat.mod_upper_bound. lia.
    + unfold k. pose proof (Nat.div_mod (length m + 1) 512 ltac:(lia)) as D.
      pose proof (Nat.mod_upper_bound (length m + 1) 512 ltac:(lia)).
      set (q := ((length m + 1) / 512)%nat) in *. set (r := ((length m + 1) mod 512)%nat) in *. clearbody q r.
      rewrite Nat.add_mod_idemp_r by lia. apply (mod_nat _ _ (q + 1)); lia.
    + unfold pad. fold k. now rewrite Z_to_bits_of.
Qed.

Lemma padding_length m p : padding m p -> exists n, length p = (512 * n)%nat.
Proof.
  intros (k & Hk & Hm & ->). pose proof (Nat.div_mod (length m + 1 + k) 512 ltac:(lia)) as D. rewrite Hm in D.
  exists ((length m + 1 + k) / 512 + 1)%nat.
  rewrite app_length. cbn [length]. rewrite app_length, repeat_length. unfold bits_of. rewrite map_length, seq_length. lia.
Qed.

(** ** Constants *)

Lemma nth_prime_unique i p q : nth_prime i p -> nth_prime i q -> p = q.
Proof.
  assert (H : forall i p q, nth_prime i p -> nth_prime i q -> ~ p < q).
  { clear. intros i p q [Pp (l & Nl & Ll & Hl)] [Pq (l' & Nl' & Ll' & Hl')] C.
    assert (NoDup (p :: l)) as N. { constructor; auto. rewrite Hl. lia. }
    assert (incl (p :: l) l') as I. { intros x [<-|Hx]; apply Hl'; [auto|]. apply Hl in Hx. split; [apply Hx|lia]. }
    pose proof (NoDup_incl_length N I). cbn in H. lia. }
  intros Hp Hq. pose proof (H _ _ _ Hp Hq). pose proof (H _ _ _ Hq Hp). lia.
Qed.

Definition primes : list Z :=
  [2; 3; 5; 7; 11; 13; 17; 19; 23; 29; 31; 37; 41; 43; 47; 53; 59; 61; 67; 71; 73; 79; 83; 89; 97; 101; 103; 107; 109; 113;
   127; 131; 137; 139; 149; 151; 157; 163; 167; 173; 179; 181; 191; 193; 197; 199; 211; 223; 227; 229; 233; 239; 241; 251;
   257; 263; 269; 271; 277; 281; 283; 293; 307; 311].

Lemma primes_prime : Forall prime primes.
Proof.
  apply Forall_forall. intros p Hp. apply no_divisor_prime. revert p Hp. apply forallb_forall. vm_compute. reflexivity.
Qed.

Definition listed (q : Z) : bool :=
  existsb (Z.eqb q) primes || existsb (fun d => (d <? q) && (q mod d =? 0)) [2; 3; 5; 7; 11; 13; 17].

Lemma listed_all : forallb listed (map Z.of_nat (seq 2 310)) = true.
Proof. vm_compute. reflexivity. Qed.

Lemma primes_all q : prime q -> q <= 311 -> In q primes.
Proof.
  intros P B. assert (2 <= q) by (destruct P; lia).
  pose proof (proj1 (forallb_forall _ _) listed_all q) as L. unfold listed in L.
  rewrite orb_true_iff in L. destruct L as [L|L].
  - apply in_map_iff. exists (Z.to_nat q). rewrite in_seq. lia.
  - apply existsb_exists in L. destruct L as (x & Hx & E). now apply Z.eqb_eq in E as ->.
  - exfalso. apply existsb_exists in L. destruct L as (d & Hd & E).
    apply andb_true_iff in E. destruct E as [E1 E2]. apply Z.ltb_lt in E1. apply Z.eqb_eq in E2.
    assert (1 < d) by (cbn in Hd; lia).
    destruct (prime_divisors q P d); try lia. apply Z.mod_divide; lia.
Qed.

Fixpoint ascending (l : list Z) : bool :=
  match l with a :: (b :: _) as l => (a <? b) && ascending l | _ => true end.

Lemma ascending_split l : ascending l = true -> forall i, (i < length l)%nat ->
  (forall q, In q (firstn i l) -> q < nth i l 0) /\ (forall q, In q l -> q < nth i l 0 -> In q (firstn i l)) /\ NoDup (firstn i l).
Proof.
  induction l as [|a l IH]; intros A i Hi; [cbn in Hi; lia|].
  assert (Hall : forall q, In q l -> a < q).
  { clear IH Hi. revert a A. induction l as [|b l IH]; intros a A q []; cbn in A; apply andb_true_iff in A as [A1 A2].
    - subst. lia.
    - specialize (IH b A2 q H). lia. }
  assert (A' : ascending l = true). { destruct l; auto. cbn in A. now apply andb_true_iff in A. }
  destruct i as [|i]; cbn [firstn nth].
  - repeat split; [intros _ []|intros q [<-|Hq] C; [lia|specialize (Hall _ Hq); lia]|constructor].
  - cbn in Hi. destruct (IH A' i ltac:(lia)) as (H1 & H2 & H3). repeat split.
    + intros q [<-|Hq]; auto. apply Hall. apply nth_In. lia.
    + intros q [<-|Hq] C; [now left|right; auto].
    + constructor; auto. intros C. assert (In a l) as Ha. { rewrite <- (firstn_skipn i l). apply in_or_app. now left. }
      specialize (Hall _ Ha). lia.
Qed.

Lemma nth_prime_table i : (i < 64)%nat -> nth_prime i (nth i primes 0).
Proof.
  intros Hi. destruct (ascending_split primes eq_refl i Hi) as (H1 & H2 & H3).
  assert (Hp : prime (nth i primes 0)).
  { apply (proj1 (Forall_forall _ _) primes_prime). now apply nth_In. }
  split; auto. exists (firstn i primes). split; auto. split.
  - rewrite firstn_length. cbn [length primes]. lia.
  - intros q. split.
    + intros Hq. split; auto. apply (proj1 (Forall_forall _ _) primes_prime).
      rewrite <- (firstn_skipn i primes). apply in_or_app. now left.
    + intros [Pq C]. apply H2; auto. apply primes_all; auto.
      assert (nth i primes 0 <= 311); [|lia].
      assert (Forall (fun q => q <= 311) primes) as F by (repeat (apply Forall_cons; [lia|]); apply Forall_nil).
      apply (proj1 (Forall_forall _ _) F). now apply nth_In.
Qed.

Definition root_ok (e : Z) (pk : Z * Z) : bool :=
  existsb (fun r => let x := r * 2 ^ 32 + snd pk in (x ^ e <=? fst pk * 2 ^ (32 * e)) && (fst pk * 2 ^ (32 * e) <? (x + 1) ^ e))
    [1; 2; 3; 4; 5; 6].

Lemma K_roots : forallb (root_ok 3) (combine primes K256) = true.
Proof. vm_compute. reflexivity. Qed.
Lemma H_roots : forallb (root_ok 2) (combine (firstn 8 primes) H0) = true.
Proof. vm_compute. reflexivity. Qed.

Lemma root_unique e x y P : 0 < e -> 0 <= x -> 0 <= y -> x ^ e <= P < (x + 1) ^ e -> y ^ e <= P < (y + 1) ^ e -> x = y.
Proof.
  intros He Hx Hy [A1 A2] [B1 B2].
  assert (forall a b, 0 <= a -> 0 <= b -> a ^ e < b ^ e -> a < b) as M.
  { intros a b Ha Hb C. apply Z.pow_lt_mono_l_iff in C; auto. }
  pose proof (M x (y + 1) Hx ltac:(lia) ltac:(lia)). pose proof (M y (x + 1) Hy ltac:(lia) ltac:(lia)). lia.
Qed.

Lemma root_word_table e ps ks i w : 0 < e -> forallb (root_ok e) (combine ps ks) = true -> length ks = length ps ->
  (i < length ks)%nat -> 0 <= nth i ks 0 < 2 ^ 32 -> nth_prime i (nth i ps 0) ->
  root_word e i w <-> isw w (nth i ks 0).
Proof.
  intros He Hall L Hi Hk Hp.
  assert (Hin : In (nth i ps 0, nth i ks 0) (combine ps ks)).
  { rewrite <- combine_nth by auto. apply nth_In. rewrite combine_length. lia. }
  pose proof (proj1 (forallb_forall _ _) Hall _ Hin) as R. apply existsb_exists in R. destruct R as (r & Hr & R).
  cbn [fst snd] in R. apply andb_true_iff in R. destruct R as [R1 R2]. apply Z.leb_le in R1. apply Z.ltb_lt in R2.
  assert (0 <= r) by (cbn in Hr; lia).
  split.
  - intros (Lw & p & r' & Hp' & Hr' & B). rewrite (nth_prime_unique _ _ _ Hp' Hp) in B.
    split; auto. pose proof (num_bound w) as Bw. rewrite Lw in Bw. change (Z.of_nat 32) with 32 in Bw.
    pose proof (root_unique e (r * 2 ^ 32 + nth i ks 0) (r' * 2 ^ 32 + num_of w) _ He ltac:(lia) ltac:(lia) (conj R1 R2) B).
    lia.
  - intros [Lw Ew]. split; auto. exists (nth i ps 0), r. rewrite Ew. auto.
Qed.

Lemma round_constants_iff K : round_constants K <-> forall t, (t < 64)%nat -> isw (K t) (nth t K256 0).
Proof.
  assert (B : Forall (fun k => 0 <= k < 2 ^ 32) K256) by (repeat (apply Forall_cons; [lia|]); apply Forall_nil).
  unfold round_constants. split; intros H t Ht; specialize (H t Ht).
  - eapply root_word_table in H; eauto using K_roots, nth_prime_table; try lia.
    apply (proj1 (Forall_forall _ _) B). now apply nth_In.
  - eapply root_word_table; eauto using K_roots, nth_prime_table; try lia.
    apply (proj1 (Forall_forall _ _) B). now apply nth_In.
Qed.

Lemma nth_firstn8 i : (i < 8)%nat -> nth i (firstn 8 primes) 0 = nth i primes 0.
Proof. intros. apply firstn_nth. lia. Qed.

Lemma initial_hash_iff H : initial_hash H <-> forall t, (t < 8)%nat -> isw (H t) (nth t H0 0).
Proof.
  assert (B : Forall (fun k => 0 <= k < 2 ^ 32) H0) by (repeat (apply Forall_cons; [lia|]); apply Forall_nil).
  assert (N : forall t, (t < 8)%nat -> nth_prime t (nth t (firstn 8 primes) 0)).
  { intros t Ht. rewrite nth_firstn8 by auto. apply nth_prime_table. lia. }
  unfold initial_hash. split; intros HH t Ht; specialize (HH t Ht).
  - eapply root_word_table in HH; eauto using H_roots; try lia.
    apply (proj1 (Forall_forall _ _) B). now apply nth_In.
  - eapply root_word_table; eauto using H_roots; try lia.
    apply (proj1 (Forall_forall _ _) B). now apply nth_In.
Qed.

(** ** The digest *)

Lemma isw_word w x : isw w x -> Z_to_bits 32 x = w.
Proof.
  intros H. rewrite Z_to_bits_of. unfold bits_of. apply (nth_ext _ _ false false).
  { rewrite map_length, seq_length. symmetry. apply H. }
  rewrite map_length, seq_length. intros i Hi. rewrite (isw_bit _ _ _ H) by auto.
  rewrite (nth_indep _ false (Z.testbit x (Z.of_nat (32 - 1 - 0)))) by (rewrite map_length, seq_length; lia).
  rewrite (map_nth (fun i => Z.testbit x (Z.of_nat (32 - 1 - i)))), seq_nth by auto. reflexivity.
Qed.

Theorem top_sha256 K H m p : round_constants K -> initial_hash H -> padding m p -> sha256 m = digest K H p.
Proof.
  intros HK HH HP. rewrite round_constants_iff in HK. rewrite initial_hash_iff in HH.
  destruct (padding_length _ _ HP) as [n L]. apply padding_pad in HP. unfold sha256. cbv zeta. rewrite <- HP.
  rewrite (chunks_spec 512 ltac:(lia) n) by (auto; lia).
  assert (V : isv (chain K H p (length p / 512)) (fold_left (fun h b => compress h (map bits_to_Z (chunks 16 32 b)))
     (map (fun i => firstn 512 (skipn (512 * i) p)) (seq 0 n)) H0)).
  { replace (length p / 512)%nat with n by (rewrite L, Nat.mul_comm, Nat.div_mul; lia).
    apply (isv_chain K H p n (fun t => nth t K256 0)); auto.
    cbn [chain isv]. do 8 eexists. split; [reflexivity|].
    repeat match goal with |- _ /\ _ => split end; apply HH; lia. }
  revert V. unfold digest. generalize (chain K H p (length p / 512)). intros [[[[[[[a b] c] d] e] f] g] h].
  intros (x0 & x1 & x2 & x3 & x4 & x5 & x6 & x7 & E & V). rewrite E. cbn [flat_map].
  destruct V as (V0 & V1 & V2 & V3 & V4 & V5 & V6 & V7).
  rewrite (isw_word _ _ V0), (isw_word _ _ V1), (isw_word _ _ V2), (isw_word _ _ V3), (isw_word _ _ V4),
    (isw_word _ _ V5), (isw_word _ _ V6), (isw_word _ _ V7), app_nil_r. reflexivity.
Qed.

Lemma table_word l t : Forall (fun k => 0 <= k < 2 ^ 32) l -> (t < length l)%nat -> isw (bits_of 32 (nth t l 0)) (nth t l 0).
Proof.
  intros F Ht. eapply isw_eq; [apply isw_bits_of|]. unfold w32. apply Z.mod_small.
  apply (proj1 (Forall_forall _ _) F). now apply nth_In.
Qed.

Theorem top_sha_exists : (exists K, round_constants K) /\ (exists H, initial_hash H) /\ (forall m, exists! p, padding m p).
Proof.
  split; [|split].
  - exists (fun t => bits_of 32 (nth t K256 0)). apply round_constants_iff. intros t Ht. apply table_word; auto. repeat (apply Forall_cons; [lia|]); apply Forall_nil.
  - exists (fun t => bits_of 32 (nth t H0 0)). apply initial_hash_iff. intros t Ht. apply table_word; auto. repeat (apply Forall_cons; [lia|]); apply Forall_nil.
  - intros m. exists (pad m). split. { now apply padding_pad. } intros p Hp. symmetry. now apply padding_pad.
Qed.

(** ** The double hash of a block *)

Theorem top_sha256d K H m d : round_constants K -> initial_hash H -> double_digest K H m d <-> d = sha256d m.
Proof.
  intros HK HH. unfold double_digest, sha256d. split.
  - intros (p1 & p2 & H1 & H2 & ->). rewrite <- (top_sha256 K H _ p2 HK HH H2). f_equal. symmetry. now apply top_sha256.
  - intros ->. exists (pad m), (pad (digest K H (pad m))).
    assert (P1 : padding m (pad m)) by now apply padding_pad.
    assert (P2 : padding (digest K H (pad m)) (pad (digest K H (pad m)))) by now apply padding_pad.
    split; [exact P1|]. split; [exact P2|]. rewrite <- (top_sha256 K H _ _ HK HH P2). f_equal. now apply top_sha256.
Qed.

Theorem top_prev_hash_fips (E : Env) (W : Wf E) K H blk hsh s : round_constants K -> initial_hash H ->
  good s -> List.length hsh = 4%nat ->
  exists s', run true (check_prev_hash blk hsh) s = (Ok tt, s') /\
    (sat (asg s') s' <-> double_digest K H (words_bits blk) (words_bits hsh)).
Proof.
  intros HK HH G L. destruct (C55_whole blk hsh s G L) as (s' & R & I). exists s'. split; auto.
  rewrite (top_sha256d K H _ _ HK HH). exact I.
Qed.

(** ** The examples published with the standard *)

Definition abc : list Z := [97; 98; 99].
Definition abc_two : list Z := flat_map (fun i => map (fun j => 97 + Z.of_nat (i + j)) (seq 0 4)) (seq 0 14).

Lemma C88_witness K H : round_constants K -> initial_hash H ->
  (forall p, padding (bytes_bits abc) p -> length p = 512%nat /\ digest K H p =
     digest_words [0xba7816bf; 0x8f01cfea; 0x414140de; 0x5dae2223; 0xb00361a3; 0x96177a9c; 0xb410ff61; 0xf20015ad]) /\
  (forall p, padding (bytes_bits abc_two) p -> length p = 1024%nat /\ digest K H p =
     digest_words [0x248d6a61; 0xd20638b8; 0xe5c02693; 0x0c3e6039; 0xa33ce459; 0x64ff2167; 0xf6ecedd4; 0x19db06c1]).
Proof.
  intros HK HH.
  split; intros p Hp; (split; [apply padding_pad in Hp as ->; vm_compute; reflexivity|]);
    rewrite <- (top_sha256 K H _ _ HK HH Hp); vm_compute; reflexivity.
Qed.
