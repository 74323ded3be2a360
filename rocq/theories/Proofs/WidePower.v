(** C105: modular powers of numbers in full 64-bit limbs over the fields in use. *)
From Coq Require Import ZArith Bool List Lia ZifyBool ZifyNat.
From Verif.Model Require Import Base CS Bellpepper Util Poly Bignat Fields F64.
From Verif.Spec Require Import Spec SpecF64 SpecExpr SpecModular SpecExact SpecWide.
From Verif.Proofs Require Import PureOps Field Arith Wp Limbs Group Carry Regroup Mult MultC Owp TopBignat1 TopBignat2 TopBignat3 TopBignat4 PrimeFields F64P TopF64 ExactP TopExact Modular Wide.
Import ListNotations.
Local Open Scope Z_scope.

Section WidePower.
Context {E : Env} {W : Wf E} (HU : usual_field E).

Lemma square_quot n : (1 <= n)%nat -> quot_limbs 64 0 [(n, 2 ^ 64 - 1)] (OMul 0 0) = (n + n)%nat.
Proof.
  intros Hn. cbn [quot_limbs nth]. unfold number_bits. cbn [fst snd]. change (bigint_bits (2 ^ 64 - 1)) with 64%nat.
  replace (64 * (n - 1) + 64 + (64 * (n - 1) + 64))%nat with (64 * (n + n))%nat by lia. apply q_exact. lia.
Qed.
Lemma square_word n : (1 <= n)%nat -> Z.of_nat n <= 2 ^ 40 -> good_word (op_word 64 n 0 (2 ^ 64 - 1) [(n, 2 ^ 64 - 1)] (OMul 0 0)).
Proof using HU W.
  intros Hn Hl. unfold op_word. rewrite square_quot by auto. cbn [nth fst snd]. change (2 ^ Z.of_nat 64) with (2 ^ 64).
  apply (word_mods HU n n (n + n) n); lia.
Qed.
Lemma square_room n : (1 <= n)%nat -> Z.of_nat n <= 2 ^ 40 -> op_room 64 n 0 (2 ^ 64 - 1) [(n, 2 ^ 64 - 1)] (OMul 0 0).
Proof using HU W.
  intros Hn Hl. destruct (square_word n Hn Hl) as (R1 & R2 & _). pose proof (cap_modulus HU) as HC. unfold op_room. rewrite square_quot by auto. cbn [nth fst snd length].
  assert (2 ^ 42 < 2 ^ 236) by (apply Z.pow_lt_mono_r; lia). repeat match goal with |- _ /\ _ => split end; auto; lia.
Qed.
Lemma square_fits n mz : (1 <= n)%nat -> Z.of_nat n <= 2 ^ 40 -> 0 < mz <= 2 ^ Z.of_nat (64 * n) ->
  op_fits 64 n 0 (2 ^ 64 - 1) mz [(n, 2 ^ 64 - 1)] [mz - 1] (OMul 0 0).
Proof using HU W.
  intros Hn Hl Hm. destruct (square_word n Hn Hl) as (_ & _ & R3). unfold op_fits. rewrite R3, square_quot by auto. cbn [op_value nth fst snd].
  assert (HP : 0 <= (mz - 1) * (mz - 1) < 2 ^ Z.of_nat (64 * (n + n))).
  { rewrite Nat.mul_add_distr_l, Nat2Z.inj_add, Z.pow_add_r by lia. nia. }
  split; [apply quotient_small; [exact HP|lia]|]. apply (groups_reach (n + n - 1) _ (n + n)); [|apply HP]. apply common_even; [now exists n; lia|lia|lia].
Qed.

Lemma plain_shape s b xs : num64_at s b xs -> of_shape 64 (length xs, 2 ^ 64 - 1) b.
Proof.
  intros (Hb & Hw & Hm & _). pose proof (bignat_at_length _ _ _ Hb) as HL. destruct Hb as (_ & _ & _ & HN & _).
  unfold of_shape. cbn [fst snd]. auto.
Qed.
Lemma plain_shape_for rho0 s b xs : num64 rho0 s b xs -> of_shape 64 (length xs, 2 ^ 64 - 1) b.
Proof.
  intros (Hb & Hw & Hm & _). destruct Hb as ((HS & _) & HF & _). assert (HL : length (limbs b) = length xs) by (clear -HF; induction HF; cbn [length]; congruence).
  unfold of_shape. cbn [fst snd]. rewrite <- HL. auto.
Qed.

(** The honest prover completes the chain and the result is the reduced power. *)
Lemma wide_power_complete m x Mm A p s : good s -> num64_at s m Mm -> num64_at s x A -> length A = length Mm -> int64 A < int64 Mm ->
  exists zs s' R, run true (program m [x] (power_ops p)) s = (Ok zs, s') /\ good s' /\
    bignat_at s' (last zs x) R /\ int64 R = int64 A ^ Zpos p mod int64 Mm.
Proof using HU W.
  intros G HM HX HL HV. pose proof (good_good_for s G) as GF.
  destruct (num64_digits _ _ _ _ GF (at_num64 _ _ _ HM)) as (DM & LM & UM & _). destruct (num64_digits _ _ _ _ GF (at_num64 _ _ _ HX)) as (DA & _ & _ & _).
  pose proof (digits_bound Mm DM) as BM. pose proof (digits_bound A DA) as BA.
  pose proof (plain_shape _ _ _ HM) as SM. pose proof (plain_shape _ _ _ HX) as SX. rewrite HL in SX.
  destruct HM as (Hm & WM & MM & ZM & NM & _). destruct HX as (Hx & WX & MX & _).
  pose proof (square_fits (length Mm) (int64 Mm) LM UM ltac:(lia)) as SF. pose proof (square_room (length Mm) LM UM) as SR.
  pose proof (top_power_complete 64 (length Mm) 0 (2 ^ 64 - 1) ltac:(lia) LM ltac:(lia) (nb64 HU) m x Mm A p s) as T. cbv zeta in T. change (2 ^ Z.of_nat 64) with (2 ^ 64) in T. fold (int64 Mm) (int64 A) in T.
  exact (T G SM Hm ZM ltac:(lia) SX Hx ltac:(lia) SR SF).
Qed.

Lemma wide_power_any wit m x Mm A p s rho0 zs s' : good_for rho0 s -> num64 rho0 s m Mm -> num64 rho0 s x A -> length A = length Mm -> int64 A < int64 Mm ->
  run wit (program m [x] (power_ops p)) s = (Ok zs, s') ->
  completed s rho0 s' (fun rho => int_of rho (last zs x) = int64 A ^ Zpos p mod int64 Mm).
Proof using HU W.
  intros G HM HX HL HV Hr.
  destruct (num64_digits _ _ _ _ G HM) as (DM & LM & UM & _). destruct (num64_digits _ _ _ _ G HX) as (DA & _ & _ & _).
  pose proof (digits_bound Mm DM) as BM. pose proof (digits_bound A DA) as BA.
  pose proof (plain_shape_for _ _ _ _ HM) as SM. pose proof (plain_shape_for _ _ _ _ HX) as SX. rewrite HL in SX.
  destruct HM as (Hm & WM & MM & ZM & NM & _). destruct HX as (Hx & WX & MX & _).
  pose proof (square_fits (length Mm) (int64 Mm) LM UM ltac:(lia)) as SF. pose proof (square_room (length Mm) LM UM) as SR.
  pose proof (top_power_any 64 (length Mm) 0 (2 ^ 64 - 1) ltac:(lia) LM ltac:(lia) (nb64 HU) wit m x Mm A p s rho0 zs s') as T. cbv zeta in T. change (2 ^ Z.of_nat 64) with (2 ^ 64) in T. fold (int64 Mm) (int64 A) in T.
  exact (T G SM Hm ZM ltac:(lia) SX Hx ltac:(lia) Hr SR SF).
Qed.

Lemma num64_wires rho0 s b xs rho : num64 rho0 s b xs -> same_on s rho rho0 -> rho ONE = 1 -> wires rho (limbs b) = xs.
Proof.
  intros [(_ & HF & _) _] Hso H1. unfold wires. induction HF as [|l v ls vs H F IH]; cbn [map]; auto. rewrite IH, (H rho Hso H1); auto.
Qed.
Lemma num64_int rho0 s b xs rho : num64 rho0 s b xs -> same_on s rho rho0 -> rho ONE = 1 -> bounded rho b /\ int_of rho b = int64 xs.
Proof.
  intros H Hso H1. pose proof (num64_wires _ _ _ _ _ H Hso H1) as EW. destruct H as [(_ & _ & HB) (Hw & _)]. unfold bounded, int_of. rewrite EW, Hw. auto.
Qed.

(** Whatever satisfies the chain holds a number congruent to the power; if it is below the modulus it is the power. *)
Lemma wide_power_sound wit m x Mm A p s rho0 zs s' rho : num64 rho0 s m Mm -> num64 rho0 s x A -> length A = length Mm ->
  run wit (program m [x] (power_ops p)) s = (Ok zs, s') -> same_on s rho rho0 -> sat rho s' ->
  let z := int_of rho (last zs x) in
  (int64 Mm | int64 A ^ Zpos p - z) /\ 0 <= z < 2 ^ Z.of_nat (64 * length Mm) /\
  (z < int64 Mm -> z = int64 A ^ Zpos p mod int64 Mm).
Proof using HU W.
  intros HM HX HL Hr Hso Hs z. destruct Hs as [H1 Hs].
  destruct (num64_int _ _ _ _ _ HM Hso H1) as [BM VM]. destruct (num64_int _ _ _ _ _ HX Hso H1) as [BX VX].
  pose proof (plain_shape_for _ _ _ _ HM) as SM. pose proof (plain_shape_for _ _ _ _ HX) as SX. rewrite HL in SX.
  destruct HM as (Hm & WM & MM & ZM & NM & UM). assert (LM : (1 <= length Mm)%nat) by (destruct Mm; [congruence|cbn [length]; lia]).
  destruct (top_power_value 64 (length Mm) 0 (2 ^ 64 - 1) ltac:(lia) LM wit m x p s zs s' rho Hr (conj H1 Hs) SM BM ZM SX BX (square_room _ LM UM)) as (K1 & K2 & K3).
  rewrite VM, VX in K1. fold z in K1. destruct K2 as (Kw & _ & Kl & Km). cbn [fst snd] in Kl, Km.
  assert (BZ : 0 <= z < 2 ^ Z.of_nat (64 * length Mm)).
  { unfold z, int_of. rewrite Kw, pow2_mul. change (2 ^ Z.of_nat 64) with (2 ^ 64). rewrite <- Kl.
    assert (D : digits (wires rho (limbs (last zs x)))).
    { unfold bounded in K3. rewrite Km in K3. change (2 ^ Z.of_nat 64) with (2 ^ 64) in K3. unfold digits. rewrite Forall_forall in K3 |- *. intros v Hv. pose proof (K3 v Hv) as K4. cbv beta in K4. unfold wires in Hv. apply in_map_iff in Hv. destruct Hv as (l & <- & _). pose proof (fmk_canon (lc_eval rho l)) as [C _]; fold (feval rho l) in C. lia. }
    pose proof (digits_bound _ D) as HB. unfold int64 in HB. rewrite pow2_mul in HB. replace (length (limbs (last zs x))) with (length (wires rho (limbs (last zs x)))) by (unfold wires; apply map_length). exact HB. }
  split; [exact K1|]. split; [exact BZ|]. intros HZ. destruct K1 as [q Hq]. apply Zmod_unique with q; [lia|]. lia.
Qed.

(** ** Any chain of modular multiplications and reductions *)
Definition same_shape (n k : nat) : list (nat * Z) := repeat (n, 2 ^ 64 - 1) k.
Lemma nth_same n k i : (i < k)%nat -> nth i (same_shape n k) (0%nat, 0) = (n, 2 ^ 64 - 1).
Proof. intros H. unfold same_shape. rewrite (nth_indep _ _ (n, 2 ^ 64 - 1)) by now rewrite repeat_length. apply nth_repeat. Qed.
Lemma mul_quot n k i j : (1 <= n)%nat -> (i < k)%nat -> (j < k)%nat -> quot_limbs 64 0 (same_shape n k) (OMul i j) = (n + n)%nat.
Proof.
  intros Hn Hi Hj. cbn [quot_limbs]. rewrite !nth_same by auto. unfold number_bits. cbn [fst snd]. change (bigint_bits (2 ^ 64 - 1)) with 64%nat.
  replace (64 * (n - 1) + 64 + (64 * (n - 1) + 64))%nat with (64 * (n + n))%nat by lia. apply q_exact. lia.
Qed.
Lemma red_quot n k i : (1 <= n)%nat -> (i < k)%nat -> quot_limbs 64 0 (same_shape n k) (ORed i) = n.
Proof.
  intros Hn Hi. cbn [quot_limbs]. rewrite !nth_same by auto. unfold number_bits. cbn [fst snd]. change (bigint_bits (2 ^ 64 - 1)) with 64%nat.
  replace (64 * (n - 1) + 64)%nat with (64 * n)%nat by lia. apply q_exact. lia.
Qed.
Lemma mul_word n k i j : (1 <= n)%nat -> Z.of_nat n <= 2 ^ 40 -> (i < k)%nat -> (j < k)%nat -> good_word (op_word 64 n 0 (2 ^ 64 - 1) (same_shape n k) (OMul i j)).
Proof using HU W.
  intros Hn Hl Hi Hj. unfold op_word. rewrite mul_quot, !nth_same by auto. cbn [fst snd]. change (2 ^ Z.of_nat 64) with (2 ^ 64). apply (word_mods HU n n (n + n) n); lia.
Qed.
Lemma red_word n k i : (1 <= n)%nat -> Z.of_nat n <= 2 ^ 40 -> (i < k)%nat -> good_word (op_word 64 n 0 (2 ^ 64 - 1) (same_shape n k) (ORed i)).
Proof using HU W.
  intros Hn Hl Hi. unfold op_word. rewrite red_quot, !nth_same by auto. cbn [fst snd]. change (2 ^ Z.of_nat 64) with (2 ^ 64). apply (word_reds HU n n); lia.
Qed.
Lemma same_snoc n k : same_shape n k ++ [(n, 2 ^ 64 - 1)] = same_shape n (S k).
Proof. unfold same_shape. change [(n, 2 ^ 64 - 1)] with (repeat (n, 2 ^ 64 - 1) 1). rewrite <- repeat_app. f_equal. lia. Qed.
Lemma small_sizes n : Z.of_nat n <= 2 ^ 40 -> Z.of_nat (n + n + n) <= modulus.
Proof using HU W. intros H. pose proof (cap_modulus HU). assert (2 ^ 42 < 2 ^ 236) by (apply Z.pow_lt_mono_r; lia). lia. Qed.

Lemma wide_room n : (1 <= n)%nat -> Z.of_nat n <= 2 ^ 40 -> forall ops k, closed_ops k ops -> program_room 64 n 0 (2 ^ 64 - 1) (same_shape n k) ops.
Proof using HU W.
  intros Hn Hl. pose proof (small_sizes n Hl) as HS. induction ops as [|o ops IH]; intros k HC; cbn [program_room closed_ops] in *; auto.
  destruct o as [i j|i j|i]; [destruct HC as (Hi & Hj & HC)|contradiction|destruct HC as (Hi & HC)].
  - split; [|cbn [op_shape]; change (2 ^ Z.of_nat 64) with (2 ^ 64); rewrite same_snoc; now apply IH].
    destruct (mul_word n k i j Hn Hl Hi Hj) as (R1 & R2 & _). unfold op_room. rewrite mul_quot, !nth_same by auto. cbn [fst snd]. unfold same_shape at 1 2. rewrite repeat_length.
    repeat match goal with |- _ /\ _ => split end; auto; lia.
  - split; [|cbn [op_shape]; change (2 ^ Z.of_nat 64) with (2 ^ 64); rewrite same_snoc; now apply IH].
    destruct (red_word n k i Hn Hl Hi) as (R1 & R2 & _). unfold op_room. rewrite red_quot by auto. unfold same_shape at 1. rewrite repeat_length.
    repeat match goal with |- _ /\ _ => split end; auto; lia.
Qed.

Lemma wide_fits n mz : (1 <= n)%nat -> Z.of_nat n <= 2 ^ 40 -> 0 < mz < 2 ^ Z.of_nat (64 * n) ->
  forall ops k vs, closed_ops k ops -> length vs = k -> Forall (fun v => 0 <= v < 2 ^ Z.of_nat (64 * n)) vs ->
  program_fits 64 n 0 (2 ^ 64 - 1) mz (same_shape n k) vs ops.
Proof using HU W.
  intros Hn Hl Hm. induction ops as [|o ops IH]; intros k vs HC HL HV; cbn [program_fits closed_ops] in *; auto.
  assert (NV : forall i, (i < k)%nat -> 0 <= nth i vs 0 < 2 ^ Z.of_nat (64 * n)). { intros i Hi. rewrite Forall_forall in HV. apply HV, nth_In. lia. }
  assert (EXT : forall v, 0 <= v < 2 ^ Z.of_nat (64 * n) -> Forall (fun v => 0 <= v < 2 ^ Z.of_nat (64 * n)) (vs ++ [v])) by (intros v Hv; apply Forall_app; auto).
  assert (LEN : forall v, length (vs ++ [v]) = S k) by (intros v; rewrite app_length; cbn [length]; lia).
  destruct o as [i j|i j|i]; [destruct HC as (Hi & Hj & HC)|contradiction|destruct HC as (Hi & HC)].
  - pose proof (NV i Hi) as Vi. pose proof (NV j Hj) as Vj. split.
    + destruct (mul_word n k i j Hn Hl Hi Hj) as (_ & _ & R3). unfold op_fits. rewrite R3, mul_quot, !nth_same by auto. cbn [op_value fst snd].
      assert (HP : 0 <= nth i vs 0 * nth j vs 0 < 2 ^ Z.of_nat (64 * (n + n))) by (rewrite Nat.mul_add_distr_l, Nat2Z.inj_add, Z.pow_add_r by lia; nia).
      split; [apply quotient_small; [exact HP|lia]|]. apply (groups_reach (n + n - 1) _ (n + n)); [|apply HP]. apply common_even; [exists n; lia|lia|lia].
    + cbn [op_shape]. change (2 ^ Z.of_nat 64) with (2 ^ 64). rewrite same_snoc. apply IH; auto. apply EXT. cbn [op_reduced]. pose proof (Z.mod_pos_bound (nth i vs 0 * nth j vs 0) mz ltac:(lia)). lia.
  - pose proof (NV i Hi) as Vi. split.
    + destruct (red_word n k i Hn Hl Hi) as (_ & _ & R3). unfold op_fits. rewrite R3, red_quot, !nth_same by auto. cbn [op_value fst snd].
      split; [apply quotient_small; [exact Vi|lia]|]. apply (groups_reach n _ n); [|apply Vi]. eapply Nat.le_trans; [|apply common_ge; lia]. lia.
    + cbn [op_shape]. change (2 ^ Z.of_nat 64) with (2 ^ 64). rewrite same_snoc. apply IH; auto. apply EXT. cbn [op_reduced]. pose proof (Z.mod_pos_bound (nth i vs 0) mz ltac:(lia)). lia.
Qed.

Lemma ins_same n k : (1 <= n)%nat -> ins_ok (same_shape n k).
Proof. intros H. apply Forall_forall. intros p Hp. apply repeat_spec in Hp. subst p. cbn [fst snd]. lia. Qed.
Lemma shapes_for rho0 s n xs As : Forall2 (num64 rho0 s) xs As -> Forall (fun A => length A = n) As -> Forall2 (of_shape 64) (same_shape n (length xs)) xs.
Proof.
  intros H. induction H as [|x A xs As Hx H IH]; intros HL; cbn [length same_shape repeat]; constructor; inversion HL; subst.
  - now apply (plain_shape_for rho0 s).
  - apply IH. auto.
Qed.
Lemma values_for rho0 s n xs As : good_for rho0 s -> Forall2 (num64 rho0 s) xs As -> Forall (fun A => length A = n) As ->
  Forall (fun v => 0 <= v < 2 ^ Z.of_nat (64 * n)) (map int64 As) /\ length (map int64 As) = length xs /\ Forall2 (bignat_for rho0 s) xs As.
Proof.
  intros G H. induction H as [|x A xs As Hx H IH]; intros HL; cbn [length map]; auto.
  inversion HL; subst. destruct (IH ltac:(auto)) as (I1 & I2 & I3). destruct (num64_digits _ _ _ _ G Hx) as (DA & _).
  split; [constructor; auto; now apply digits_bound|]. split; [lia|]. constructor; auto. apply Hx.
Qed.

Lemma wide_chain_complete m xs Mm As ops s : good s -> num64_at s m Mm -> Forall2 (num64_at s) xs As -> Forall (fun A => length A = length Mm) As ->
  0 < int64 Mm -> closed_ops (length xs) ops ->
  exists zs s' Zs, run true (program m xs ops) s = (Ok zs, s') /\ good s' /\ Forall2 (bignat_at s') zs Zs /\
    map int64 Zs = grow (op_reduced (int64 Mm)) (map int64 As) ops.
Proof using HU W.
  intros G HM HX HL HZ HC. pose proof (good_good_for s G) as GF. pose proof (at_num64 _ _ _ HM) as HMf.
  assert (HXf : Forall2 (num64 (asg s) s) xs As) by (clear -HX; induction HX; constructor; auto; now apply at_num64).
  assert (HXb : Forall2 (bignat_at s) xs As) by (clear -HX; induction HX as [|? ? ? ? [? _]]; constructor; auto).
  destruct (num64_digits _ _ _ _ GF HMf) as (DM & LM & UM & _). pose proof (digits_bound Mm DM) as BM.
  destruct (values_for _ _ _ _ _ GF HXf HL) as (VV & VL & _). pose proof (shapes_for _ _ _ _ _ HXf HL) as SX. pose proof (plain_shape _ _ _ HM) as SM.
  destruct HM as (Hm & WM & MM & ZM & NM & _).
  pose proof (top_program_complete 64 (length Mm) 0 (2 ^ 64 - 1) ltac:(lia) LM ltac:(lia) (nb64 HU) m (same_shape (length Mm) (length xs)) xs Mm As ops s) as T. cbv zeta in T. change (2 ^ Z.of_nat 64) with (2 ^ 64) in T. fold int64 in T.
  destruct (T G SM Hm ZM ltac:(fold (int64 Mm); lia) (ins_same _ _ LM) SX HXb (wide_room _ LM UM ops _ HC) (wide_fits _ _ LM UM (conj HZ (proj2 BM)) ops _ _ HC VL VV)) as (zs & s' & Zs & H1 & H2 & _ & H3 & H4).
  exists zs, s', Zs. auto.
Qed.

Lemma wide_chain_any wit m xs Mm As ops s rho0 zs s' : good_for rho0 s -> num64 rho0 s m Mm -> Forall2 (num64 rho0 s) xs As -> Forall (fun A => length A = length Mm) As ->
  0 < int64 Mm -> closed_ops (length xs) ops -> run wit (program m xs ops) s = (Ok zs, s') ->
  completed s rho0 s' (fun rho => map (int_of rho) zs = grow (op_reduced (int64 Mm)) (map int64 As) ops).
Proof using HU W.
  intros G HM HX HL HZ HC Hr.
  destruct (num64_digits _ _ _ _ G HM) as (DM & LM & UM & _). pose proof (digits_bound Mm DM) as BM.
  destruct (values_for _ _ _ _ _ G HX HL) as (VV & VL & HXb). pose proof (shapes_for _ _ _ _ _ HX HL) as SX. pose proof (plain_shape_for _ _ _ _ HM) as SM.
  destruct HM as (Hm & WM & MM & ZM & NM & _).
  pose proof (top_program_any 64 (length Mm) 0 (2 ^ 64 - 1) ltac:(lia) LM ltac:(lia) (nb64 HU) wit m (same_shape (length Mm) (length xs)) xs Mm As ops s rho0 zs s') as T. cbv zeta in T. change (2 ^ Z.of_nat 64) with (2 ^ 64) in T. fold int64 in T.
  exact (T G SM Hm ZM ltac:(fold (int64 Mm); lia) (ins_same _ _ LM) SX HXb Hr (wide_room _ LM UM ops _ HC) (wide_fits _ _ LM UM (conj HZ (proj2 BM)) ops _ _ HC VL VV)).
Qed.

Lemma wide_chain_sound wit m xs Mm As ops s rho0 zs s' rho : num64 rho0 s m Mm -> Forall2 (num64 rho0 s) xs As -> Forall (fun A => length A = length Mm) As ->
  closed_ops (length xs) ops -> run wit (program m xs ops) s = (Ok zs, s') -> same_on s rho rho0 -> sat rho s' ->
  Forall2 (fun z v => (int64 Mm | v - int_of rho z)) zs (grow op_value (map int64 As) ops).
Proof using HU W.
  intros HM HX HL HC Hr Hso Hs. destruct (num64_int _ _ _ _ _ HM Hso (proj1 Hs)) as [BM VM].
  pose proof (shapes_for _ _ _ _ _ HX HL) as SX. pose proof (plain_shape_for _ _ _ _ HM) as SM.
  destruct HM as (Hm & WM & MM & ZM & NM & UM). assert (LM : (1 <= length Mm)%nat) by (destruct Mm; [congruence|cbn [length]; lia]).
  assert (BX : Forall (bounded rho) xs /\ map (int_of rho) xs = map int64 As).
  { clear -HX Hso Hs. induction HX as [|x A xs As Hx H IH]; cbn [map]; auto. destruct IH as [I1 I2]. destruct (num64_int _ _ _ _ _ Hx Hso (proj1 Hs)) as [K1 K2]. split; [constructor; auto|congruence]. }
  destruct BX as [BX VX].
  destruct (top_program_value 64 (length Mm) 0 (2 ^ 64 - 1) ltac:(lia) LM wit m (same_shape (length Mm) (length xs)) xs ops s zs s' rho Hr Hs SM BM ZM (ins_same _ _ LM) SX BX (wide_room _ LM UM ops _ HC)) as (_ & _ & H).
  rewrite VM, VX in H. exact H.
Qed.
End WidePower.

(** Over the field of the example program: the fifth power of 2^100 modulo 2^127 - 1, in two limbs each. *)
Lemma wide_power_witness : let E := pallas_f64 log2_down true in
  exists x m s zs s' R, run true (let! x := alloc_from_nat (Ok (2 ^ 100)) 64 2 in let! m := alloc_from_nat (Ok (2 ^ 127 - 1)) 64 2 in Ret (x, m)) st_init = (Ok (x, m), s) /\
    good s /\ closed_ops 1 (power_ops 5) /\ run true (program m [x] (power_ops 5)) s = (Ok zs, s') /\ good s' /\ bignat_at s' (last zs x) R /\ int64 R = 2 ^ 119.
Proof.
  intros E. pose proof (proj1 (usual_pallas log2_down true log2_down_faithful)) as HU. pose proof (wf_pallas_f64 log2_down true) as W. fold E in HU, W.
  destruct (wide_two HU (2 ^ 100) 2 (2 ^ 127 - 1) 2) as (x & m & A & Mm & s & R & G & NA & NM & LA & LM & VA & VM); try lia.
  destruct (wide_power_complete HU m x Mm A 5 s G NM NA ltac:(congruence) ltac:(rewrite VA, VM; lia)) as (zs & s' & Rz & H1 & H2 & H3 & H4).
  exists x, m, s, zs, s', Rz. rewrite VA, VM in H4. split; [exact R|]. split; [exact G|]. split; [cbn; lia|]. split; [exact H1|]. split; [exact H2|]. split; [exact H3|]. rewrite H4. vm_compute. reflexivity.
Qed.
