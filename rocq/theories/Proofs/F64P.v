(** The carry width computed in f64 against its exact value. *)
From Coq Require Import ZArith Bool Lia ZifyBool ZifyNat.
From Verif.Model Require Import Base F64.
From Verif.Spec Require Import SpecF64.
Local Open Scope Z_scope.

Lemma p2pos s : 0 <= s -> 0 < 2 ^ s.
Proof. intros. apply Z.pow_pos_nonneg; lia. Qed.

(** ** Rounding *)
Lemma rne_mono_up m s K : 0 <= s -> m <= K * 2 ^ s -> rne m s <= K.
Proof.
  intros Hs H. unfold rne. pose proof (p2pos s Hs) as HP.
  pose proof (Z.div_mod m (2 ^ s) ltac:(lia)). pose proof (Z.mod_pos_bound m (2 ^ s) HP).
  set (q := m / 2 ^ s) in *. set (r := m mod 2 ^ s) in *. set (P := 2 ^ s) in *.
  assert (q <= K) by nia.
  destruct (2 * r <? P) eqn:E1; [lia|]. assert (q < K) by nia.
  destruct (P <? 2 * r); [lia|]. destruct (Z.even q); lia.
Qed.
Lemma rne_mono_low m s K : 0 <= s -> K * 2 ^ s <= m -> K <= rne m s.
Proof.
  intros Hs H. unfold rne. pose proof (p2pos s Hs) as HP.
  pose proof (Z.div_mod m (2 ^ s) ltac:(lia)). pose proof (Z.mod_pos_bound m (2 ^ s) HP).
  set (q := m / 2 ^ s) in *. set (r := m mod 2 ^ s) in *. set (P := 2 ^ s) in *.
  assert (K <= q) by nia.
  destruct (2 * r <? P) eqn:E1; [lia|].
  destruct (P <? 2 * r); [lia|]. destruct (Z.even q); lia.
Qed.
Lemma rne_exact m s : 0 <= s -> rne (m * 2 ^ s) s = m.
Proof. intros Hs. apply Z.le_antisymm; [apply rne_mono_up|apply rne_mono_low]; lia. Qed.
Lemma rne_0 m : rne m 0 = m.
Proof. replace m with (m * 2 ^ 0) at 1 by (change (2 ^ 0) with 1; lia). now apply rne_exact. Qed.
Lemma rne_tie_down q r s : 0 <= s -> Z.even q = true -> 0 <= r -> 2 * r <= 2 ^ s -> rne (q * 2 ^ s + r) s = q.
Proof.
  intros Hs He Hr Hr2. unfold rne. pose proof (p2pos s Hs).
  assert (r < 2 ^ s) by lia.
  rewrite Z.add_comm, Z.div_add, Z.div_small, Z.mod_add, Z.mod_small by lia. rewrite Z.add_0_l.
  destruct (2 * r <? 2 ^ s) eqn:E1; auto. destruct (2 ^ s <? 2 * r) eqn:E2; [lia|]. now rewrite He.
Qed.

Lemma log2_le_pow a n : 0 <= n -> a < 2 ^ (n + 1) -> Z.log2 a <= n.
Proof.
  intros Hn H. destruct (Z.le_gt_cases a 0) as [|C]; [rewrite Z.log2_nonpos; lia|].
  apply Z.lt_succ_r. apply Z.log2_lt_pow2; auto. 
Qed.

(** Small numbers are not changed, up to the choice of the pair. *)
Lemma fround_small m e : Z.abs m < 2 ^ 53 -> Z.log2 (Z.abs m) + e < 1024 -> fround m e = Fin m e.
Proof.
  intros H He. unfold fround. rewrite (Z.max_l 0) by (pose proof (log2_le_pow (Z.abs m) 52 ltac:(lia) H); lia).
  rewrite rne_0, Z.add_0_r.
  destruct (negb (m =? 0) && (1024 <=? Z.log2 (Z.abs m) + e)) eqn:E; auto. lia.
Qed.

(** A positive number below 2^1023 rounds to a positive number of at most 53 bits. *)
Lemma fround_pos m e : 0 < m -> Z.log2 m + e < 1023 -> let s := Z.max 0 (Z.log2 m - 52) in
  exists q, fround m e = Fin q (e + s) /\ q = rne m s /\ 2 ^ (Z.log2 m - s) <= q <= 2 ^ (Z.log2 m - s + 1) /\ q <= 2 ^ 53.
Proof.
  intros Hm He s. pose proof (Z.log2_spec m Hm) as [L1 L2]. pose proof (Z.log2_nonneg m).
  exists (rne m s). set (q := rne m s).
  assert (Hs : 0 <= s <= Z.log2 m) by lia.
  assert (H1 : 2 ^ (Z.log2 m - s) <= q).
  { apply rne_mono_low; [lia|]. rewrite <- Z.pow_add_r by lia. now replace (Z.log2 m - s + s) with (Z.log2 m) by lia. }
  assert (H2 : q <= 2 ^ (Z.log2 m - s + 1)).
  { apply rne_mono_up; [lia|]. rewrite <- Z.pow_add_r by lia.
    replace (Z.log2 m - s + 1 + s) with (Z.succ (Z.log2 m)) by lia. lia. }
  assert (H3 : 2 ^ (Z.log2 m - s + 1) <= 2 ^ 53) by (apply Z.pow_le_mono_r; lia).
  split; [|repeat split; auto; lia].
  assert (Hq : 0 < q) by (pose proof (p2pos (Z.log2 m - s) ltac:(lia)); lia).
  unfold fround. rewrite !(Z.abs_eq m) by lia. fold s. fold q.
  assert (Z.log2 q <= Z.log2 m - s + 1).
  { rewrite <- (Z.log2_pow2 (Z.log2 m - s + 1)) by lia. now apply Z.log2_le_mono. }
  rewrite (Z.abs_eq q) by lia.
  destruct (negb (q =? 0) && (1024 <=? Z.log2 q + (e + s))) eqn:E; auto. lia.
Qed.

(** ** The argument of the logarithm *)
Lemma fmul2_fin q s : 0 < q <= 2 ^ 53 -> Z.log2 q + s < 1022 ->
  exists m e, fmul2 (Fin q s) = Fin m e /\ 0 < m < 2 ^ 53 /\ s + 1 <= e /\ m * 2 ^ (e - (s + 1)) = q.
Proof.
  intros Hq Hs. cbn [fmul2]. destruct (Z.eq_dec q (2 ^ 53)) as [->|N].
  - exists (2 ^ 52), (s + 2). split.
    + unfold fround. change (Z.max 0 (Z.log2 (Z.abs (2 ^ 53)) - 52)) with 1.
      change (rne (2 ^ 53) 1) with (2 ^ 52). change (negb (2 ^ 52 =? 0)) with true. 
      change (Z.log2 (Z.abs (2 ^ 52))) with 52. change (Z.log2 (2 ^ 53)) with 53 in Hs. cbn [andb].
      destruct (1024 <=? 52 + (s + 1 + 1)) eqn:E; [lia|]. f_equal. lia.
    + split; [|split; [lia|]]. { split; [reflexivity|apply Z.pow_lt_mono_r; lia]. }
      replace (s + 2 - (s + 1)) with 1 by lia. reflexivity.
  - exists q, (s + 1). rewrite fround_small; [|lia|rewrite Z.abs_eq by lia; lia].
    split; auto. split; [lia|]. split; [lia|]. rewrite Z.sub_diag. change (2 ^ 0) with 1. lia.
Qed.

(** ** The logarithm *)
Lemma bernoulli N x : 0 <= x -> forall n, 0 <= n -> N = 1 + x -> 1 + n * x <= N ^ n.
Proof.
  intros Hx n Hn ->. revert n Hn. apply natlike_ind; [reflexivity|]. intros n Hn IH.
  rewrite Z.pow_succ_r by auto. nia.
Qed.
Lemma bern2 N n : 0 < N -> 0 <= n -> N ^ n * N + n * N ^ n <= (N + 1) ^ n * N.
Proof.
  intros HN Hn. revert n Hn. apply (natlike_ind (fun n => N ^ n * N + n * N ^ n <= (N + 1) ^ n * N)); [cbn; lia|].
  intros n Hn IH. rewrite !Z.pow_succ_r by auto. pose proof (Z.pow_pos_nonneg N n HN Hn).
  set (A := N ^ n) in *. set (C := (N + 1) ^ n) in *. nia.
Qed.
Lemma bern N : 0 < N -> 2 * N ^ N <= (N + 1) ^ N.
Proof. intros HN. pose proof (bern2 N N HN ltac:(lia)). nia. Qed.

Lemma log2_ge_bern m e k q : 0 <= q -> 0 < m -> e <= k -> 2 ^ (k - e) * (2 ^ q + 1) <= m * 2 ^ q ->
  log2_ge m e (k * 2 ^ q + 1) q.
Proof.
  intros Hq Hm Hk H. unfold log2_ge. pose proof (p2pos q Hq) as HN. set (N := 2 ^ q) in *.
  replace (k * N + 1 - e * N) with ((k - e) * N + 1) by ring.
  rewrite Z.pow_add_r, Z.pow_mul_r by nia. set (a := 2 ^ (k - e)) in *.
  assert (Ha : 0 < a) by (apply p2pos; lia). change (2 ^ 1) with 2.
  assert (K : (a * (N + 1)) ^ N <= (m * N) ^ N) by (apply Z.pow_le_mono_l; nia).
  rewrite !Z.pow_mul_l in K. pose proof (bern N HN) as B. clearbody N a.
  assert (0 < N ^ N) by (apply Z.pow_pos_nonneg; lia). assert (0 < a ^ N) by (apply Z.pow_pos_nonneg; lia). 
  set (X := N ^ N) in *. set (Y := (N + 1) ^ N) in *. set (A := a ^ N) in *. set (MM := m ^ N) in *.
  assert (A * (2 * X) <= MM * X) by nia. nia.
Qed.

Section Log.
Context (m e lm le : Z) (Hm : 0 < m < 2 ^ 53) (He : 0 <= e) (Hk : 1 <= Z.log2 m + e < 1024)
  (HF : faithful_at m e lm le).
Let k := Z.log2 m + e.

Lemma log_low : num_le k 0 lm le.
Proof.
  destruct HF as [_ H]. destruct (H k 0 ltac:(lia)) as [H1 _]; [unfold k; change (2 ^ 53) with 9007199254740992; lia|].
  apply H1. unfold log2_ge. change (2 ^ 0) with 1. rewrite Z.pow_1_r.
  replace (k - e * 1) with (Z.log2 m) by (unfold k; lia). apply Z.log2_spec. lia.
Qed.
Lemma log_high : num_le lm le (k + 1) 0.
Proof.
  destruct HF as [_ H]. destruct (H (k + 1) 0 ltac:(lia)) as [_ H1]; [unfold k; change (2 ^ 53) with 9007199254740992; lia|].
  apply H1. unfold log2_le. change (2 ^ 0) with 1. rewrite Z.pow_1_r.
  replace (k + 1 - e * 1) with (Z.succ (Z.log2 m)) by (unfold k; lia). apply Z.lt_le_incl, Z.log2_spec. lia.
Qed.
Lemma log_exact : m = 2 ^ Z.log2 m -> num_le lm le k 0.
Proof.
  intros Hp. destruct HF as [_ H]. destruct (H k 0 ltac:(lia)) as [_ H1]; [unfold k; change (2 ^ 53) with 9007199254740992; lia|].
  apply H1. unfold log2_le. change (2 ^ 0) with 1. rewrite Z.pow_1_r.
  replace (k - e * 1) with (Z.log2 m) by (unfold k; lia). lia.
Qed.
Lemma log_away : 2 ^ Z.log2 m * (2 ^ 43 + 1) <= m * 2 ^ 43 -> num_le (k * 2 ^ 43 + 1) (-43) lm le.
Proof.
  intros Ha. destruct HF as [_ H]. destruct (H (k * 2 ^ 43 + 1) 43 ltac:(lia)) as [H1 _].
  { unfold k. change (2 ^ 53) with (1024 * 2 ^ 43). lia. }
  apply H1. apply log2_ge_bern; try lia. { unfold k. pose proof (Z.log2_nonneg m). lia. }
  now replace (k - e) with (Z.log2 m) by (unfold k; lia).
Qed.
End Log.

(** ** Subtracting, rounding up, adding a tenth, truncating *)
Lemma fadd_tenth_cast n : 0 <= n <= 2048 -> f64_as_usize (fadd (Fin n 0) tenth) = Z.to_nat n.
Proof.
  intros Hn. unfold fadd, tenth. change (Z.min 0 (-55)) with (-55). change (0 - -55) with 55. change (-55 - -55) with 0.
  change (2 ^ 0) with 1. set (X := n * 2 ^ 55 + 3602879701896397 * 1).
  assert (HX : 0 < X < 2 ^ 67). { unfold X. change (2 ^ 67) with (4096 * 2 ^ 55). change (2 ^ 55) with 36028797018963968. lia. }
  assert (HL : 0 <= Z.log2 X <= 66). { split; [apply Z.log2_nonneg|]. apply log2_le_pow; lia. }
  destruct (fround_pos X (-55)) as (q & Hq & Eq & _ & _); [lia|lia|]. cbv zeta in *. rewrite Hq.
  set (s := Z.max 0 (Z.log2 X - 52)) in *. assert (Hs : 0 <= s <= 14) by lia.
  assert (Q1 : n * 2 ^ (55 - s) <= q).
  { subst q. apply rne_mono_low; [lia|]. rewrite <- Z.mul_assoc, <- Z.pow_add_r by lia. replace (55 - s + s) with 55 by lia.
    unfold X. lia. }
  assert (Q2 : q <= n * 2 ^ (55 - s) + 2 ^ (54 - s)).
  { subst q. apply rne_mono_up; [lia|]. rewrite Z.mul_add_distr_r, <- Z.mul_assoc, <- !Z.pow_add_r by lia.
    replace (55 - s + s) with 55 by lia. replace (54 - s + s) with 54 by lia. unfold X. 
    change (2 ^ 54) with 18014398509481984. lia. }
  cbn [f64_as_usize]. destruct (0 <=? -55 + s) eqn:E; [lia|].
  replace (- (-55 + s)) with (55 - s) by lia.
  assert (HP : 2 ^ (55 - s) = 2 * 2 ^ (54 - s)). { rewrite <- Z.pow_succ_r by lia. f_equal. lia. }
  pose proof (p2pos (54 - s) ltac:(lia)) as HP2.
  assert (Hqt : Z.quot q (2 ^ (55 - s)) = n).
  { rewrite Z.quot_div_nonneg by nia. symmetry. apply Z.div_unique with (r := q - n * 2 ^ (55 - s)); nia. }
  rewrite Hqt. rewrite Z.min_l by (unfold usize_max; lia). reflexivity.
Qed.

Lemma quot_le_half q s : 0 <= s -> q <= 2 ^ s / 2 -> Z.quot q (2 ^ s) <= 0.
Proof.
  intros Hs H. pose proof (p2pos s Hs). destruct (Z.le_gt_cases q 0).
  - destruct (Z.eq_dec q 0) as [->|]; [rewrite Z.quot_0_l; lia|].
    replace q with (- (- q)) by lia. rewrite Z.quot_opp_l by lia. assert (0 <= Z.quot (- q) (2 ^ s)) by (apply Z.quot_pos; lia). lia.
  - rewrite Z.quot_small; [lia|]. pose proof (Z.div_lt (2 ^ s) 2 ltac:(lia) ltac:(lia)). lia.
Qed.
Lemma fround_nonpos X e : X <= 0 -> (exists q s, fround X e = Fin q (e + s) /\ q <= 0 /\ 0 <= s) \/ fround X e = Inf true.
Proof.
  intros H. unfold fround. set (s := Z.max 0 _). assert (Hq : rne X s <= 0) by (apply rne_mono_up; lia).
  destruct (negb (rne X s =? 0) && _) eqn:E.
  - right. f_equal. lia.
  - left. exists (rne X s), s. split; auto. lia.
Qed.
Lemma cast_nonpos q e : q <= 0 -> f64_as_usize (Fin q e) = O.
Proof.
  intros H. cbn [f64_as_usize]. destruct (0 <=? e) eqn:E.
  - pose proof (p2pos e ltac:(lia)). assert (q * 2 ^ e <= 0) by nia. lia.
  - assert (K : Z.quot q (2 ^ (- e)) <= 0).
    { apply quot_le_half; [lia|]. assert (0 <= 2 ^ (- e) / 2) by (apply Z.div_pos; [apply Z.pow_nonneg|]; lia). lia. }
    lia.
Qed.
Lemma fadd_tenth_nonpos c e : 0 <= e -> c <= 0 -> f64_as_usize (fadd (Fin c e) tenth) = O.
Proof.
  intros He Hc. destruct (Z.eq_dec c 0) as [->|N].
  - replace (fadd (Fin 0 e) tenth) with (fadd (Fin 0 0) tenth). { now apply (fadd_tenth_cast 0). }
    unfold fadd, tenth. now rewrite !(Z.min_r) by lia.
  - unfold fadd, tenth. rewrite Z.min_r by lia. rewrite Z.sub_diag. change (2 ^ 0) with 1.
    assert (HX : c * 2 ^ (e - -55) + 3602879701896397 * 1 <= 0).
    { assert (2 ^ 55 <= 2 ^ (e - -55)) by (apply Z.pow_le_mono_r; lia). change (2 ^ 55) with 36028797018963968 in *. nia. }
    destruct (fround_nonpos _ (-55) HX) as [(q & s & -> & Hq & _)| ->]; [|reflexivity]. now apply cast_nonpos.
Qed.

Lemma of_usize_small w : (Z.of_nat w < 2 ^ 53) -> f64_of_usize w = Fin (Z.of_nat w) 0.
Proof.
  intros H. unfold f64_of_usize. apply fround_small; rewrite ?Z.abs_eq by lia; auto.
  pose proof (log2_le_pow (Z.of_nat w) 52 ltac:(lia) H). lia.
Qed.

Lemma ceil_between X s n : 0 <= s -> (n - 1) * 2 ^ s < X <= n * 2 ^ s -> - ((- X) / 2 ^ s) = n.
Proof.
  intros Hs H. pose proof (p2pos s Hs). 
  assert ((- X) / 2 ^ s = - n); [|lia]. symmetry. apply Z.div_unique with (r := n * 2 ^ s - X); nia.
Qed.

Definition tail (l : f64) (w : nat) : nat := f64_as_usize (fadd (fceil (fsub64 l (f64_of_usize w))) tenth).

(** The part after the logarithm: round up and subtract the limb width. *)
Lemma tail_spec lm le w k n : Z.of_nat w < 2 ^ 53 -> Z.abs lm < 2 ^ 53 -> 1 <= k <= 1024 ->
  num_le k 0 lm le -> num_le lm le (k + 1) 0 ->
  (n = k /\ num_le lm le k 0) \/ (n = k + 1 /\ ~ num_le lm le k 0) -> tail (Fin lm le) w = Z.to_nat (n - Z.of_nat w).
Proof.
  intros Hw Hlm Hk L1 L2 Hn. unfold tail. rewrite of_usize_small by auto. unfold fsub64, fneg64.
  unfold num_le in *. set (W := Z.of_nat w) in *. assert (0 <= W) by lia.
  destruct (Z.le_gt_cases 0 le) as [Hle|Hle].
  - (* the logarithm is an integer *)
    rewrite (Z.min_l 0 le), (Z.min_r le 0), !Z.sub_diag in * by lia. change (2 ^ 0) with 1 in *. rewrite !Z.sub_0_r, !Z.mul_1_r in *.
    unfold fadd at 2. rewrite (Z.min_r le 0), !Z.sub_0_r by lia. change (2 ^ 0) with 1. rewrite Z.mul_1_r.
    set (L := lm * 2 ^ le) in *. assert (n = L) by lia. subst n.
    assert (S : Z.abs (L + - W) < 2 ^ 53) by lia.
    rewrite fround_small; [|auto|pose proof (log2_le_pow _ 52 ltac:(lia) S); lia].
    cbn [fceil]. rewrite Z.leb_refl.
    destruct (Z.le_gt_cases W L).
    + rewrite fadd_tenth_cast by lia. f_equal.
    + rewrite fadd_tenth_nonpos by lia. lia.
  - rewrite (Z.min_r 0 le), (Z.min_l le 0), !Z.sub_diag in * by lia. change (2 ^ 0) with 1 in *. rewrite !Z.sub_0_l, !Z.mul_1_r in *.
    unfold fadd at 2. cbv zeta. rewrite (Z.min_l le 0) by lia. rewrite Z.sub_diag. replace (0 - le) with (- le) by lia. change (2 ^ 0) with 1. rewrite Z.mul_1_r.
    pose proof (p2pos (- le) ltac:(lia)) as HP. set (P := 2 ^ - le) in *.
    assert (Hcl : fceil (Fin (lm + - W * P) le) = Fin (n - W) 0).
    { cbn [fceil]. destruct (0 <=? le) eqn:E; [lia|]. f_equal. apply ceil_between; [lia|]. fold P. nia. }
    destruct (Z.le_gt_cases W k) as [Hwk|Hwk].
    + assert (S : Z.abs (lm + - W * P) < 2 ^ 53) by nia.
      rewrite fround_small; [|auto|pose proof (log2_le_pow _ 52 ltac:(lia) S); lia].
      rewrite Hcl. apply fadd_tenth_cast. lia.
    + assert (HX : lm + - W * P <= 0) by nia.
      replace (Z.to_nat (n - W)) with O by lia.
      destruct (fround_nonpos _ le HX) as [(q & s & -> & Hq & Hs)| ->]; [|reflexivity].
      unfold fceil. destruct (0 <=? le + s) eqn:E.
      * apply fadd_tenth_nonpos; lia.
      * apply fadd_tenth_nonpos; [lia|]. pose proof (p2pos (- (le + s)) ltac:(lia)). 
        assert (0 <= (- q) / 2 ^ (- (le + s))) by (apply Z.div_pos; lia). lia.
Qed.

(** ** The whole expression *)
Section Carry.
Context (log2f : f64 -> f64) (HL : faithful_log2 log2f).

(** The argument of the logarithm for a word [M], and how it relates to [M]. *)
Lemma arg_spec M : 1 <= M < 2 ^ 1020 -> let K := Z.log2 M in
  exists m e, fmul2 (f64_of_bigint M) = Fin m e /\ 0 < m < 2 ^ 53 /\ 1 <= e /\
    2 ^ (K + 1) <= m * 2 ^ e <= 2 ^ (K + 2) /\
    (M = 2 ^ K -> m * 2 ^ e = 2 ^ (K + 1)) /\
    ((M - 2 ^ K) * 2 ^ 53 <= 2 ^ K -> m * 2 ^ e = 2 ^ (K + 1) \/ K < 53) /\
    (K <= 52 -> m * 2 ^ e = 2 * M) /\
    (2 ^ K * (2 ^ 43 + 1) <= M * 2 ^ 43 -> 2 ^ (K + 1) * (2 ^ 43 + 1) <= m * 2 ^ e * 2 ^ 43).
Proof.
  intros HM K. pose proof (Z.log2_spec M ltac:(lia)) as [B1 B2]. fold K in B1, B2. pose proof (Z.log2_nonneg M) as HK0. fold K in HK0.
  assert (HK : K < 1020) by (apply Z.log2_lt_pow2; lia).
  destruct (fround_pos M 0) as (q & Hq & Eq & Q1 & Q2); [lia|fold K; lia|]. fold K in Hq, Eq, Q1. cbv zeta in *.
  set (s := Z.max 0 (K - 52)) in *. rewrite Z.add_0_l in Hq.
  assert (Hq0 : 0 < q) by (pose proof (p2pos (K - s) ltac:(lia)); lia).
  assert (Hlq : Z.log2 q <= K - s + 1). { rewrite <- (Z.log2_pow2 (K - s + 1)) by lia. apply Z.log2_le_mono. lia. }
  destruct (fmul2_fin q s) as (m & e & H1 & H2 & H3 & H4); [lia|lia|].
  exists m, e. unfold f64_of_bigint. rewrite Hq. split; [auto|]. split; [auto|]. split; [lia|].
  assert (HV : m * 2 ^ e = q * 2 ^ s * 2).
  { rewrite <- H4. replace e with (e - (s + 1) + s + 1) at 1 by lia. rewrite !Z.pow_add_r by lia. change (2 ^ 1) with 2. ring. }
  pose proof (p2pos s ltac:(lia)) as HPs.
  assert (HKs : 2 ^ K = 2 ^ (K - s) * 2 ^ s) by (rewrite <- Z.pow_add_r by lia; f_equal; lia).
  assert (HK1 : 2 ^ (K + 1) = 2 ^ K * 2) by (rewrite Z.pow_add_r by lia; reflexivity).
  assert (HK2 : 2 ^ (K + 2) = 2 ^ K * 4) by (rewrite Z.pow_add_r by lia; reflexivity).
  assert (HKs1 : 2 ^ (K - s + 1) = 2 ^ (K - s) * 2) by (rewrite Z.pow_add_r by lia; reflexivity).
  rewrite HV, HK1, HK2. split; [nia|]. split; [|split; [|split]].
  - intros Hp. assert (q = 2 ^ (K - s)); [|nia]. subst q. rewrite Hp at 1. rewrite HKs. apply rne_exact. lia.
  - intros Hc. destruct (Z.lt_ge_cases K 53) as [C|C]; [now right|left].
    assert (q = 2 ^ (K - s)); [|nia]. subst q. replace M with (2 ^ (K - s) * 2 ^ s + (M - 2 ^ K)) at 1 by lia.
    apply rne_tie_down; [lia| |lia|].
    + replace (K - s) with 52 by lia. reflexivity.
    + assert (HX : 2 ^ K = 2 ^ s * 2 ^ 52) by (rewrite <- Z.pow_add_r by lia; f_equal; lia).
      rewrite HX in Hc at 2. change (2 ^ 53) with (2 * 2 ^ 52) in Hc. nia.
  - intros Hc. assert (Es : s = 0) by lia. rewrite Es in *. subst q. rewrite rne_0. change (2 ^ 0) with 1. lia.
  - intros Ha. destruct (Z.le_gt_cases K 52) as [C|C].
    + assert (Es : s = 0) by lia. rewrite Es in *. subst q. rewrite rne_0. change (2 ^ 0) with 1. lia.
    + assert (Hz : (2 ^ (K - s - 43) * (2 ^ 43 + 1)) <= q); [|].
      { subst q. apply rne_mono_low; [lia|].
        assert (HX : 2 ^ K = 2 ^ (K - s - 43) * 2 ^ s * 2 ^ 43) by (rewrite <- !Z.pow_add_r by lia; f_equal; lia).
        rewrite HX in Ha. nia. }
      assert (HX : 2 ^ K = 2 ^ (K - s - 43) * 2 ^ s * 2 ^ 43) by (rewrite <- !Z.pow_add_r by lia; f_equal; lia).
      rewrite HX. nia.
Qed.

(** The result for an argument [m * 2^e] between 2^k and 2^(k+1). *)
Lemma width_of m e w k : Z.of_nat w < 2 ^ 53 -> 0 < m < 2 ^ 53 -> 0 <= e -> 1 <= k < 1023 -> 2 ^ k <= m * 2 ^ e <= 2 ^ (k + 1) ->
  let c := tail (log2f (Fin m e)) w in
  (m * 2 ^ e = 2 ^ k -> c = Z.to_nat (k - Z.of_nat w)) /\
  (2 ^ k * (2 ^ 43 + 1) <= m * 2 ^ e * 2 ^ 43 -> c = Z.to_nat (k + 1 - Z.of_nat w)) /\
  (c = Z.to_nat (k - Z.of_nat w) \/ c = Z.to_nat (k + 1 - Z.of_nat w)).
Proof.
  intros Hw Hm He Hk Hv c. pose proof (p2pos e He) as HPe. pose proof (p2pos k ltac:(lia)) as HPk.
  assert (H1k : 2 ^ (k + 1) = 2 ^ k * 2) by (rewrite Z.pow_add_r by lia; reflexivity).
  pose proof (Z.log2_nonneg m) as Hl0.
  assert (HlV : Z.log2 (m * 2 ^ e) = Z.log2 m + e) by (rewrite Z.log2_mul_pow2 by lia; lia).
  destruct (Z.eq_dec (m * 2 ^ e) (2 ^ (k + 1))) as [Htop|Htop].
  - assert (Hkk : Z.log2 m + e = k + 1) by (rewrite <- HlV, Htop; apply Z.log2_pow2; lia).
    destruct HL as (H & _). destruct (H m e Hm ltac:(lia)) as (lm & le & El & HF).
    assert (Hp : m = 2 ^ Z.log2 m).
    { assert (m * 2 ^ e = 2 ^ Z.log2 m * 2 ^ e) by (rewrite Htop, <- Z.pow_add_r by lia; f_equal; lia). nia. }
    assert (Hc : c = Z.to_nat (k + 1 - Z.of_nat w)).
    { unfold c. rewrite El. apply tail_spec with (k := k + 1); auto; try lia.
      - apply HF.
      - rewrite <- Hkk. apply (log_low m e); auto; lia.
      - rewrite <- Hkk. apply (log_high m e); auto; lia.
      - left. split; auto. rewrite <- Hkk. apply (log_exact m e); auto; lia. }
    split; [intros; lia|]. split; auto.
  - assert (Hkk : Z.log2 m + e = k).
    { rewrite <- HlV. apply Z.log2_unique; [lia|]. replace (Z.succ k) with (k + 1) by lia. lia. }
    destruct HL as (H & _). destruct (H m e Hm ltac:(lia)) as (lm & le & El & HF).
    assert (T : forall n, (n = k /\ num_le lm le k 0) \/ (n = k + 1 /\ ~ num_le lm le k 0) -> c = Z.to_nat (n - Z.of_nat w)).
    { intros n Hn. unfold c. rewrite El. apply tail_spec with (k := k); auto; try lia.
      - apply HF.
      - rewrite <- Hkk. apply (log_low m e); auto; lia.
      - rewrite <- Hkk. apply (log_high m e); auto; lia. }
    split; [|split].
    + intros Hb. apply T. left. split; auto. rewrite <- Hkk. apply (log_exact m e); auto; try lia.
      assert (m * 2 ^ e = 2 ^ Z.log2 m * 2 ^ e) by (rewrite Hb, <- Z.pow_add_r by lia; f_equal; lia). nia.
    + intros Ha. apply T. right. split; auto.
      assert (HA : num_le (k * 2 ^ 43 + 1) (-43) lm le).
      { rewrite <- Hkk. apply (log_away m e); auto; try lia.
        assert (2 ^ k = 2 ^ Z.log2 m * 2 ^ e) by (rewrite <- Z.pow_add_r by lia; f_equal; lia). nia. }
      clear -HA. unfold num_le in *. intros Hc.
      destruct (Z.le_gt_cases 0 le).
      * rewrite (Z.min_r le 0) in Hc by lia. rewrite (Z.min_l (-43) le) in HA by lia. rewrite !Z.sub_diag, !Z.sub_0_r in *.
        change (2 ^ 0) with 1 in *. replace (le - -43) with (le + 43) in HA by lia. rewrite Z.pow_add_r in HA by lia. nia.
      * rewrite (Z.min_l le 0) in Hc by lia. rewrite Z.sub_diag, Z.sub_0_l in Hc. change (2 ^ 0) with 1 in Hc.
        destruct (Z.le_gt_cases (-43) le).
        -- rewrite (Z.min_l (-43) le) in HA by lia. rewrite !Z.sub_diag in *. change (2 ^ 0) with 1 in *.
           assert (E43 : 2 ^ 43 = 2 ^ (- le) * 2 ^ (le - -43)) by (rewrite <- Z.pow_add_r by lia; f_equal; lia).
           pose proof (p2pos (le - -43) ltac:(lia)). rewrite E43 in HA. nia.
        -- rewrite (Z.min_r (-43) le) in HA by lia. rewrite !Z.sub_diag in *. change (2 ^ 0) with 1 in *.
           assert (E43 : 2 ^ (- le) = 2 ^ 43 * 2 ^ (-43 - le)) by (rewrite <- Z.pow_add_r by lia; f_equal; lia).
           pose proof (p2pos (-43 - le) ltac:(lia)). rewrite E43 in Hc. nia.
    + assert (D : num_le lm le k 0 \/ ~ num_le lm le k 0) by (unfold num_le; lia).
      destruct D; [left|right]; apply T; auto.
Qed.

Lemma log2_up_cases M : 1 <= M -> let K := Z.log2 M in
  (M = 2 ^ K -> Z.log2_up (2 * M) = K + 1) /\ (2 ^ K < M -> Z.log2_up (2 * M) = K + 2).
Proof.
  intros HM K. pose proof (Z.log2_spec M ltac:(lia)) as [B1 B2]. fold K in B1, B2. pose proof (Z.log2_nonneg M). fold K in H.
  split; intros Hp.
  - rewrite Hp. rewrite <- Z.pow_succ_r by lia. rewrite Z.log2_up_pow2 by lia. lia.
  - apply Z.log2_up_unique; [lia|]. replace (Z.pred (K + 2)) with (Z.succ K) by lia.
    replace (K + 2) with (Z.succ (Z.succ K)) by lia. rewrite !Z.pow_succ_r in * by lia. lia.
Qed.

Lemma carry_zero w : Z.of_nat w < 2 ^ 53 -> carry_bits_of log2f 0 w = carry_bits_exact 0 w.
Proof.
  intros Hw. unfold carry_bits_of. change (fmul2 (f64_of_bigint 0)) with (Fin 0 1).
  destruct HL as (_ & -> & _). rewrite of_usize_small by auto. cbn [fneg64 fsub64 fadd fceil tenth f64_as_usize].
  unfold carry_bits_exact. change (Z.log2_up (2 * 0)) with 0. lia.
Qed.

(** Exact at powers of two and when the word exceeds one by at least its 2^-43th part. *)
Lemma top_carry_exact M w : 0 <= M < 2 ^ 1020 -> Z.of_nat w < 2 ^ 53 ->
  M = 2 ^ Z.log2 M \/ 2 ^ Z.log2 M <= (M - 2 ^ Z.log2 M) * 2 ^ 43 ->
  carry_bits_of log2f M w = carry_bits_exact M w.
Proof.
  intros HM Hw Ha. destruct (Z.eq_dec M 0) as [->|N]; [now apply carry_zero|].
  destruct (arg_spec M ltac:(lia)) as (m & e & Em & Hm & He & Hv & Hp & _ & _ & Hfar).
  pose proof (log2_up_cases M ltac:(lia)) as [U1 U2]. cbv zeta in *. set (K := Z.log2 M) in *.
  assert (HK : 0 <= K < 1020). { split; [apply Z.log2_nonneg|apply Z.log2_lt_pow2; lia]. }
  pose proof (p2pos K ltac:(lia)).
  change (carry_bits_of log2f M w) with (tail (log2f (fmul2 (f64_of_bigint M))) w). rewrite Em.
  destruct (width_of m e w (K + 1)) as (W1 & W2 & _); try lia; auto.
  { now replace (K + 1 + 1) with (K + 2) by lia. }
  unfold carry_bits_exact. destruct Ha as [Ha|Ha].
  - rewrite U1 by auto. apply W1. auto.
  - rewrite U2 by nia. replace (K + 2) with (K + 1 + 1) by lia. apply W2. apply Hfar. lia.
Qed.

(** One bit short just above a power of two. *)
Lemma top_carry_short M w : 1 <= M < 2 ^ 1020 -> Z.of_nat w < 2 ^ 53 ->
  2 ^ Z.log2 M < M -> (M - 2 ^ Z.log2 M) * 2 ^ 53 <= 2 ^ Z.log2 M ->
  carry_bits_of log2f M w = Nat.pred (carry_bits_exact M w).
Proof.
  intros HM Hw Hlt Hc. 
  destruct (arg_spec M ltac:(lia)) as (m & e & Em & Hm & He & Hv & _ & Hsh & _ & _).
  pose proof (log2_up_cases M ltac:(lia)) as [_ U2]. cbv zeta in *. set (K := Z.log2 M) in *.
  assert (HK : 0 <= K < 1020). { split; [apply Z.log2_nonneg|apply Z.log2_lt_pow2; lia]. }
  change (carry_bits_of log2f M w) with (tail (log2f (fmul2 (f64_of_bigint M))) w). rewrite Em.
  destruct (width_of m e w (K + 1)) as (W1 & _ & _); try lia; auto.
  { now replace (K + 1 + 1) with (K + 2) by lia. }
  unfold carry_bits_exact. rewrite U2 by auto. rewrite W1; [lia|].
  destruct (Hsh Hc) as [|Hs]; auto. exfalso.
  assert (2 ^ K <= 2 ^ 52) by (apply Z.pow_le_mono_r; lia). change (2 ^ 53) with (2 * 2 ^ 52) in Hc. nia.
Qed.

(** Never too wide, and at most one bit short. *)
Lemma top_carry_bounds M w : 0 <= M < 2 ^ 1020 -> Z.of_nat w < 2 ^ 53 ->
  (Nat.pred (carry_bits_exact M w) <= carry_bits_of log2f M w <= carry_bits_exact M w)%nat.
Proof.
  intros HM Hw. destruct (Z.eq_dec M 0) as [->|N]; [rewrite carry_zero by auto; lia|].
  destruct (Z.eq_dec M (2 ^ Z.log2 M)) as [P|P]; [rewrite top_carry_exact by auto; lia|].
  destruct (arg_spec M ltac:(lia)) as (m & e & Em & Hm & He & Hv & _).
  pose proof (log2_up_cases M ltac:(lia)) as [_ U2]. pose proof (Z.log2_spec M ltac:(lia)) as [B1 _]. cbv zeta in *. set (K := Z.log2 M) in *.
  assert (HK : 0 <= K < 1020). { split; [apply Z.log2_nonneg|apply Z.log2_lt_pow2; lia]. }
  change (carry_bits_of log2f M w) with (tail (log2f (fmul2 (f64_of_bigint M))) w). rewrite Em.
  destruct (width_of m e w (K + 1)) as (_ & _ & W3); try lia; auto.
  { now replace (K + 1 + 1) with (K + 2) by lia. }
  unfold carry_bits_exact. rewrite U2 by lia. lia.
Qed.
End Carry.

(** ** A faithful logarithm exists: the one rounded down *)
Definition log2_down (x : f64) : f64 :=
  match x with
  | Fin m e =>
      if m <=? 0 then Inf true
      else
        let q := 52 - Z.log2 (Z.log2 m + e) in
        Fin (Z.log2 (m ^ (2 ^ q)) + e * 2 ^ q) (- q)
  | _ => x
  end.

Lemma num_le_iff x a y b : 0 <= a -> 0 <= b -> (num_le x (- a) y (- b) <-> x * 2 ^ b <= y * 2 ^ a).
Proof.
  intros Ha Hb. unfold num_le. destruct (Z.le_ge_cases a b) as [H|H].
  - rewrite (Z.min_r (- a) (- b)) by lia. rewrite Z.sub_diag. replace (- a - - b) with (b - a) by lia.
    assert (E : 2 ^ b = 2 ^ (b - a) * 2 ^ a) by (rewrite <- Z.pow_add_r by lia; f_equal; lia).
    rewrite E. pose proof (p2pos a Ha). change (2 ^ 0) with 1. nia.
  - rewrite (Z.min_l (- a) (- b)) by lia. rewrite Z.sub_diag. replace (- b - - a) with (a - b) by lia.
    assert (E : 2 ^ a = 2 ^ (a - b) * 2 ^ b) by (rewrite <- Z.pow_add_r by lia; f_equal; lia).
    rewrite E. pose proof (p2pos b Hb). change (2 ^ 0) with 1. nia.
Qed.

Lemma pow2_le_inv a b : 0 <= a -> 0 <= b -> 2 ^ a <= 2 ^ b -> a <= b.
Proof. intros Ha Hb H. apply (Z.pow_le_mono_r_iff 2); lia. Qed.

Lemma log2_down_at m e : 0 < m < 2 ^ 53 -> 1 <= Z.log2 m + e < 1024 ->
  let q := 52 - Z.log2 (Z.log2 m + e) in faithful_at m e (Z.log2 (m ^ (2 ^ q)) + e * 2 ^ q) (- q).
Proof.
  intros Hm Hk q. set (k := Z.log2 m + e) in *.
  pose proof (Z.log2_spec k ltac:(lia)) as [K1 K2]. pose proof (Z.log2_nonneg k) as K0.
  assert (K3 : Z.log2 k < 10) by (apply Z.log2_lt_pow2; lia).
  assert (Hq : 43 <= q <= 52) by lia.
  pose proof (p2pos q ltac:(lia)) as HN.
  pose proof (Z.log2_spec m ltac:(lia)) as [M1 M2]. pose proof (Z.log2_nonneg m) as M0.
  assert (HmN : 0 < m ^ (2 ^ q)) by (apply Z.pow_pos_nonneg; lia).
  pose proof (Z.log2_spec _ HmN) as [J1 J2]. pose proof (Z.log2_nonneg (m ^ (2 ^ q))) as J0.
  set (J' := Z.log2 (m ^ (2 ^ q))) in *.
  assert (JL : Z.log2 m * 2 ^ q <= J').
  { apply Z.log2_le_pow2; auto. rewrite Z.pow_mul_r by lia. apply Z.pow_le_mono_l. split; [apply Z.pow_nonneg; lia|lia]. }
  assert (JH : J' < (Z.log2 m + 1) * 2 ^ q).
  { apply Z.log2_lt_pow2; auto. rewrite Z.pow_mul_r by lia. apply Z.pow_lt_mono_l; lia. }
  assert (E53 : 2 ^ 53 = 2 ^ q * 2 ^ (Z.log2 k) * 2).
  { change 53 with (52 + 1). rewrite Z.pow_add_r by lia. change (2 ^ 1) with 2. rewrite <- Z.pow_add_r by lia. do 2 f_equal. lia. }
  rewrite Z.pow_succ_r in K2 by lia.
  split. { rewrite E53. unfold k in *. nia. }
  intros p r Hr Hp. rewrite !num_le_iff by lia. pose proof (p2pos r Hr) as HR.
  split; intros H.
  - destruct (Z.le_gt_cases p (k * 2 ^ r)) as [C|C].
    { apply Z.le_trans with (k * 2 ^ r * 2 ^ q); [nia|]. unfold k. nia. }
    assert (Hrq : r <= q).
    { destruct (Z.le_gt_cases r q); auto. exfalso.
      assert (2 ^ q * 2 <= 2 ^ r). { rewrite Z.mul_comm, <- Z.pow_succ_r by lia. apply Z.pow_le_mono_r; lia. }
      pose proof (p2pos (Z.log2 k) K0).
      assert (2 ^ Z.log2 k * (2 ^ q * 2) <= k * 2 ^ r) by (apply Z.mul_le_mono_nonneg; lia). lia. }
    assert (EQ : 2 ^ q = 2 ^ r * 2 ^ (q - r)) by (rewrite <- Z.pow_add_r by lia; f_equal; lia).
    pose proof (p2pos (q - r) ltac:(lia)) as HQR. unfold log2_ge in H.
    assert (G : (p - e * 2 ^ r) * 2 ^ (q - r) <= J').
    { destruct (Z.le_gt_cases 0 (p - e * 2 ^ r)) as [D|D]; [|nia].
      apply Z.log2_le_pow2; auto. rewrite Z.pow_mul_r by lia. rewrite EQ, Z.pow_mul_r by lia.
      apply Z.pow_le_mono_l. split; [apply Z.pow_nonneg; lia|auto]. }
    rewrite EQ. nia.
  - unfold log2_le in H. assert (HmR : 0 < m ^ (2 ^ r)) by (apply Z.pow_pos_nonneg; lia).
    assert (D : 0 <= p - e * 2 ^ r).
    { destruct (Z.le_gt_cases 0 (p - e * 2 ^ r)); auto. rewrite (Z.pow_neg_r 2 (p - e * 2 ^ r)) in H by lia. lia. }
    assert (G : J' * 2 ^ r <= (p - e * 2 ^ r) * 2 ^ q).
    { apply pow2_le_inv; [nia|nia|]. rewrite !Z.pow_mul_r by lia.
      apply Z.le_trans with ((m ^ 2 ^ q) ^ 2 ^ r). { apply Z.pow_le_mono_l. split; [apply Z.pow_nonneg; lia|auto]. }
      rewrite <- Z.pow_mul_r by lia. rewrite (Z.mul_comm (2 ^ q)). rewrite Z.pow_mul_r by lia.
      apply Z.pow_le_mono_l. lia. }
    nia.
Qed.
Lemma log2_down_faithful : faithful_log2 log2_down.
Proof.
  split; [|split].
  - intros m e Hm Hk. unfold log2_down. destruct (m <=? 0) eqn:E0; [lia|].
    eexists _, _. split; [reflexivity|]. now apply log2_down_at.
  - reflexivity.
  - reflexivity.
Qed.
