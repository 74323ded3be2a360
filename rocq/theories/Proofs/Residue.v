(** C107: one comparison at the end makes a chain of modular operations exact for any prover. *)
From Coq Require Import ZArith Bool List Lia ZifyBool ZifyNat.
From Verif.Model Require Import Base CS Bellpepper Util Poly Bignat Fields F64.
From Verif.Spec Require Import Spec SpecF64 SpecExpr SpecModular SpecExact SpecWide SpecSub SpecResidue.
From Verif.Proofs Require Import Field Arith Convert Limbs Wp Lc BitNum PolyP BoolP BignatEq BignatAlloc Group Carry Regroup Mult MultC TopBits TopPoly TopBignat1 PureOps TopPure Owp MinBits MuxP SubP TopBignat2 TopBignat3 Room TopBignat4 PrimeFields F64P TopF64 ExactP TopExact SubFree DividesP Total TopTotal DecP OutOfRange Expr Modular Wide WidePower CheckedSub.
Import ListNotations.
Local Open Scope Z_scope.

(** ** The integers *)
Lemma grow_congruent M : 0 < M -> forall ops us vs, closed_ops (length us) ops -> Forall2 (fun u v => u mod M = v mod M) us vs ->
  Forall2 (fun u v => u mod M = v mod M) (grow op_value us ops) (grow (op_reduced M) vs ops).
Proof.
  intros HM. induction ops as [|o ops IH]; intros us vs HC HF; cbn [grow closed_ops] in *; auto.
  assert (N : forall i, nth i us 0 mod M = nth i vs 0 mod M).
  { clear -HF. induction HF as [|u v us vs H F IHF]; intros [|i]; cbn [nth]; auto. }
  destruct o as [i j|i j|i]; [destruct HC as (Hi & Hj & HC)|contradiction|destruct HC as (Hi & HC)]; apply IH; try (rewrite app_length; cbn [length]; rewrite Nat.add_1_r; exact HC);
    apply Forall2_app; auto; constructor; auto; cbn [op_value op_reduced].
  - rewrite Z.mod_mod by lia. rewrite (Z.mul_mod (nth i us 0)), (N i), (N j), <- Z.mul_mod by lia. reflexivity.
  - rewrite Z.mod_mod by lia. apply N.
Qed.
Lemma grow_reduced M : 0 < M -> forall ops vs, closed_ops (length vs) ops -> ops <> [] -> 0 <= last (grow (op_reduced M) vs ops) 0 < M.
Proof.
  intros HM. induction ops as [|o ops IH]; intros vs HC Hne; [congruence|]. cbn [grow closed_ops] in *.
  assert (HR : 0 <= op_reduced M vs o < M) by (destruct o; [apply Z.mod_pos_bound; lia|contradiction|apply Z.mod_pos_bound; lia]).
  destruct ops as [|o' ops]; [cbn [grow]; now rewrite last_last|]. apply IH; [|discriminate].
  rewrite app_length. cbn [length]. rewrite Nat.add_1_r. destruct o; try contradiction; tauto.
Qed.
Lemma Forall2_last {A B} (R : A -> B -> Prop) l1 l2 a b : Forall2 R l1 l2 -> l1 <> [] -> R (last l1 a) (last l2 b).
Proof.
  intros H. induction H as [|x y l1 l2 Hx F IH]; intros Hne; [congruence|]. destruct F; [exact Hx|]. apply IH. discriminate.
Qed.
Lemma grow_nonempty {A} (f : list A -> op -> A) ops : forall l, ops <> [] -> grow f l ops <> [].
Proof.
  intros l H K. apply (f_equal (@length A)) in K. rewrite grow_length in K. destruct ops; [congruence|]. cbn [length] in K. lia.
Qed.
Lemma last_residue M ops vs : 0 < M -> closed_ops (length vs) ops -> ops <> [] ->
  last (grow (op_reduced M) vs ops) 0 = last (grow op_value vs ops) 0 mod M.
Proof.
  intros HM HC Hne. pose proof (grow_congruent M HM ops vs vs HC) as F.
  assert (R : Forall2 (fun u v => u mod M = v mod M) vs vs) by (clear; induction vs; constructor; auto). specialize (F R).
  pose proof (Forall2_last _ _ _ 0 0 F (grow_nonempty _ ops vs Hne)) as L. cbv beta in L. rewrite L.
  symmetry. apply Z.mod_small. now apply grow_reduced.
Qed.

Lemma grow_shapes n : forall ops k, closed_ops k ops -> grow (op_shape 64 n) (same_shape n k) ops = same_shape n (k + length ops).
Proof.
  induction ops as [|o ops IH]; intros k HC; cbn [grow closed_ops length] in *; [now rewrite Nat.add_0_r|].
  destruct o; try contradiction; cbn [op_shape]; change (2 ^ Z.of_nat 64) with (2 ^ 64); rewrite same_snoc, IH by tauto; f_equal; lia.
Qed.

Lemma digits_inj : forall l1 l2, length l1 = length l2 -> digits l1 -> digits l2 -> int64 l1 = int64 l2 -> l1 = l2.
Proof.
  induction l1 as [|x l1 IH]; intros [|y l2] HL D1 D2 HV; try discriminate; auto.
  inversion D1; subst. inversion D2; subst. unfold int64 in HV. cbn [value_of] in HV. fold (int64 l1) (int64 l2) in HV.
  assert (int64 l1 = int64 l2) by lia. f_equal; [lia|]. apply IH; auto.
Qed.

Lemma closed_app ops1 : forall k ops2, closed_ops k ops1 -> closed_ops (k + length ops1) ops2 -> closed_ops k (ops1 ++ ops2).
Proof.
  induction ops1 as [|o ops1 IH]; intros k ops2 H1 H2; cbn [app length closed_ops] in *; [now rewrite Nat.add_0_r in H2|].
  replace (k + S (length ops1))%nat with (S k + length ops1)%nat in H2 by lia. destruct o; [destruct H1 as (? & ? & ?)|contradiction|destruct H1 as (? & ?)]; auto.
Qed.
Lemma closed_power p : closed_ops 1 (power_ops p).
Proof.
  induction p as [p IH|p IH|]; cbn [power_ops]; [| |exact I]; apply closed_app; auto; cbn [closed_ops]; repeat match goal with |- _ /\ _ => split end; auto; lia.
Qed.
Lemma power_nonempty p : p <> 1%positive -> power_ops p <> [].
Proof. destruct p; cbn [power_ops]; try congruence; intros _ H; apply app_eq_nil in H; destruct H; discriminate. Qed.

Section Residue.
Context {E : Env} {W : Wf E} (HU : usual_field E).

Lemma of_shape_last n k zs d : (1 <= k)%nat -> Forall2 (of_shape 64) (same_shape n k) zs -> of_shape 64 (n, 2 ^ 64 - 1) (last zs d).
Proof.
  intros Hk H. assert (N : same_shape n k <> []) by (destruct k; [lia|discriminate]).
  pose proof (Forall2_last _ _ _ (n, 2 ^ 64 - 1) d H N) as L. cbv beta in L.
  replace (last (same_shape n k) (n, 2 ^ 64 - 1)) with (n, 2 ^ 64 - 1) in L; [exact L|].
  clear. unfold same_shape. induction k as [|k IH]; [reflexivity|]. cbn [repeat]. destruct k; [reflexivity|]. exact IH.
Qed.

Lemma sub_word_plain top r n T : plain64 top T -> of_shape 64 (n, 2 ^ 64 - 1) r -> sub_word top r = 2 ^ 64 - 1 + (2 ^ 64 - 1).
Proof.
  intros (W1 & M1 & _) (_ & _ & _ & M2). unfold sub_word. rewrite W1, M1, M2. change (2 ^ Z.of_nat 64) with (2 ^ 64). cbn [snd]. lia.
Qed.

Lemma bounded_digits rho n r : of_shape 64 (n, 2 ^ 64 - 1) r -> bounded rho r -> digits (wires rho (limbs r)) /\ length (wires rho (limbs r)) = n.
Proof.
  intros (_ & _ & L & M) HB. unfold bounded in HB. rewrite M in HB. cbn [snd fst] in *. split; [|unfold wires; now rewrite map_length].
  unfold digits. rewrite Forall_forall in HB |- *. intros v Hv. pose proof (HB v Hv) as K. cbv beta in K. unfold wires in Hv.
  apply in_map_iff in Hv. destruct Hv as (l & <- & _). pose proof (fmk_canon (lc_eval rho l)) as [C _]; fold (feval rho l) in C. lia.
Qed.

Lemma residue_sound wit m top xs Mm T As ops s rho0 r s' rho : good_for rho0 s -> chain_inputs rho0 s m top xs Mm T As ops ->
  run wit (residue m top xs ops) s = (Ok r, s') -> same_on s rho rho0 -> sat rho s' ->
  length (wires rho (limbs r)) = length Mm /\ digits (wires rho (limbs r)) /\ int64 (wires rho (limbs r)) = last (grow op_value (map int64 As) ops) 0 mod int64 Mm.
Proof using HU W.
  intros G (HM & HT & HX & HL & HZ & HV & HC & Hne) Hr Hso Hs. pose proof (proj1 Hs) as one.
  destruct (num64_int _ _ _ _ _ HM Hso one) as [BM VM]. pose proof (num64_wires _ _ _ _ _ HT Hso one) as WT.
  destruct (num64_digits _ _ _ _ G HT) as (DT & LT & UT & NT).
  pose proof (shapes_for _ _ _ _ _ HX HL) as SX. pose proof (plain_shape_for _ _ _ _ HM) as SM.
  destruct HM as (Hm & WM & MM & ZM & NM & UM). assert (LM : (1 <= length Mm)%nat) by (destruct Mm; [congruence|cbn [length]; lia]).
  assert (BX : Forall (bounded rho) xs /\ map (int_of rho) xs = map int64 As).
  { clear -HX Hso Hs. induction HX as [|x A xs As Hx H IH]; cbn [map]; auto. destruct IH as [I1 I2]. destruct (num64_int _ _ _ _ _ Hx Hso (proj1 Hs)) as [K1 K2]. split; [constructor; auto|congruence]. }
  destruct BX as [BX VX]. destruct HT as [Ht PT]. pose proof PT as (WdT & MT & _).
  revert Hr. set (Q := fun r : bignat => length (wires rho (limbs r)) = length Mm /\ digits (wires rho (limbs r)) /\ int64 (wires rho (limbs r)) = last (grow op_value (map int64 As) ops) 0 mod int64 Mm).
  intros Hr. change (Q r). apply (swp_run_any wit rho (residue m top xs ops) s r s' Q Hr Hs).
  unfold residue. sstep. eapply swp_mono.
  { apply (program_swp 64 (length Mm) 0 (2 ^ 64 - 1) ltac:(lia) LM rho one m SM BM ZM Any ops (same_shape (length Mm) (length xs)) xs (map (int_of rho) xs)); auto.
    - now apply ins_same.
    - split; [exact SX|]. split; [exact BX|]. clear. induction xs; constructor; auto. rewrite Z.sub_diag. apply Z.divide_0_r.
    - now apply (wide_room HU). }
  cbv beta. intros zs (S1 & S2 & S3). rewrite grow_shapes in S1 by auto. rewrite VM, VX in S3.
  assert (LO : (1 <= length ops)%nat) by (destruct ops; [congruence|cbn [length]; lia]).
  pose proof (of_shape_last _ (length xs + length ops) _ top ltac:(lia) S1) as SR.
  assert (NZ : zs <> []) by (intros ->; apply Forall2_length in S1; unfold same_shape in S1; rewrite repeat_length in S1; cbn [length] in S1; lia).
  pose proof (Forall2_last _ _ _ top 0 S3 NZ) as DV. cbv beta in DV.
  assert (BR : bounded rho (last zs top)).
  { rewrite Forall_forall in S2. apply S2. clear -NZ. induction zs as [|z [|z' zs] IH]; [congruence|left; reflexivity|]. right. apply IH. discriminate. }
  destruct (bounded_digits rho _ _ SR BR) as [DR LR]. set (r0 := last zs top) in *.
  sstep. sstep. eapply swp_mono.
  { apply (checked_swp rho one Any top r0 T (wires rho (limbs r0))).
    - rewrite <- WT. apply ev_wires.
    - apply ev_wires.
    - unfold in_word. rewrite MT. eapply Forall_impl; [|exact DT]. cbv beta. lia.
    - unfold in_word. destruct SR as (_ & _ & _ & ->). cbn [snd]. eapply Forall_impl; [|exact DR]. cbv beta. lia.
    - exact NT.
    - destruct SR as (_ & -> & _). now rewrite LR.
    - destruct SR as (_ & _ & _ & ->). cbn [snd]. lia.
    - rewrite WdT. lia.
    - rewrite WdT, (sub_word_plain top r0 (length Mm) T PT SR). apply (word_sub HU). }
  cbv beta. intros d (D1 & D2 & D3 & D4). rewrite WdT in *. change (2 ^ Z.of_nat 64) with (2 ^ 64) in *. fold (int64 T) (int64 (wires rho (limbs r0))) in D4.
  assert (DD : 0 <= int_of rho d).
  { unfold int_of. rewrite D1. cbn [params_new limb_width]. change (2 ^ Z.of_nat 64) with (2 ^ 64). fold (int64 (wires rho (limbs d))). apply digits_bound. exact D3. }
  sstep. unfold Q. split; [exact LR|]. split; [exact DR|].
  pose proof (digits_bound _ DR) as BRR. destruct DV as [q Hq]. unfold int_of in Hq. destruct SR as (WR & _). rewrite WR in Hq. change (2 ^ Z.of_nat 64) with (2 ^ 64) in Hq. fold (int64 (wires rho (limbs r0))) in Hq.
  apply Zmod_unique with q; lia.
Qed.

(** The wires of an accepting run. *)
Definition residue_wires (m top : bignat) k Mm T As ops : list Z :=
  let n := length Mm in
  let R := last (grow (op_limbs 64 n Mm) As ops) [] in
  let D := map (digit 64 (int64 T - int64 R)) (seq 0 (length T)) in
  program_wires 64 n 0 (2 ^ 64 - 1) Mm (same_shape n k) As ops ++
  ((D ++ regroup_aux (2 ^ 64 - 1 + (2 ^ 64 - 1)) 64 T (rsum R D)) ++ flat_map (fun y => fits_aux y 64) D).

Lemma residue_awp rho (one : rho ONE = 1) md m top xs Mm T As ops :
  let n := length Mm in
  let R := last (grow (op_limbs 64 n Mm) As ops) [] in
  plain64 m Mm -> plain64 top T -> is_bn rho md m Mm -> is_bn rho md top T -> digits Mm -> digits T ->
  Forall2 (of_shape 64) (same_shape n (length xs)) xs -> Forall2 (is_bn rho md) xs As -> Forall2 hold (same_shape n (length xs)) As ->
  Forall (fun v => 0 <= v < 2 ^ Z.of_nat (64 * n)) (map int64 As) -> length As = length xs ->
  0 < int64 Mm -> int64 T = int64 Mm - 1 -> closed_ops (length xs) ops -> ops <> [] ->
  digits R /\ length R = n /\ int64 R = last (grow op_value (map int64 As) ops) 0 mod int64 Mm /\
  awp md rho (residue m top xs ops) (residue_wires m top (length xs) Mm T As ops)
    (fun r => is_bn rho md r R /\ limb_width (bparams r) = 64%nat).
Proof using HU W.
  intros n R PM PT IM IT DM DT SX BX HX VX LX HZ HV HC Hne.
  pose proof PM as (WM & MM & ZM & NM & UM). pose proof PT as (WdT & MT & ZT & NT & UT).
  assert (LM : (1 <= n)%nat) by (unfold n; destruct Mm; [congruence|cbn [length]; lia]).
  assert (LT : (1 <= length T)%nat) by (destruct T; [congruence|cbn [length]; lia]).
  pose proof (digits_bound Mm DM) as BM. pose proof (digits_bound T DT) as BT.
  assert (SM : of_shape 64 (n, 2 ^ 64 - 1) m).
  { destruct IM as (I1 & _ & I3 & _). split; [exact WM|]. split; [exact I3|]. split; [exact (ev_length _ _ _ I1)|exact MM]. }
  pose proof (wide_room HU n LM UM ops (length xs) HC) as HR.
  assert (LO : (1 <= length ops)%nat) by (destruct ops; [congruence|cbn [length]; lia]).
  assert (BMv : 0 < value_of (2 ^ Z.of_nat 64) Mm <= 2 ^ Z.of_nat (64 * n)) by (change (2 ^ Z.of_nat 64) with (2 ^ 64); fold (int64 Mm); unfold n; lia).
  destruct (program_facts 64 n 0 (2 ^ 64 - 1) ltac:(lia) LM ltac:(lia) (nb64 HU) Mm eq_refl BMv ops _ As (ins_same n (length xs) LM) HX HR) as [F1 F2].
  change (map int64 (grow (op_limbs 64 n Mm) As ops) = grow (op_reduced (int64 Mm)) (map int64 As) ops) in F2. rewrite grow_shapes in F1 by auto.
  assert (HRR : hold (n, 2 ^ 64 - 1) R).
  { assert (N : same_shape n (length xs + length ops) <> []) by (destruct (length xs + length ops)%nat eqn:K; [lia|discriminate]).
    pose proof (Forall2_last _ _ _ (n, 2 ^ 64 - 1) [] F1 N) as K. fold R in K.
    replace (last (same_shape n (length xs + length ops)) (n, 2 ^ 64 - 1)) with (n, 2 ^ 64 - 1) in K; [exact K|].
    clear. unfold same_shape. induction (length xs + length ops)%nat as [|k IH]; [reflexivity|]. cbn [repeat]. destruct k; [reflexivity|]. exact IH. }
  destruct HRR as (LR & RR & CR). cbn [fst snd] in LR, RR.
  assert (DR : digits R) by (eapply Forall_impl; [|exact RR]; cbv beta; lia).
  assert (VR : int64 R = last (grow op_value (map int64 As) ops) 0 mod int64 Mm).
  { rewrite <- last_residue by (try rewrite map_length, LX; auto). rewrite <- F2. unfold R.
    clear. generalize (grow (op_limbs 64 n Mm) As ops). intros l. induction l as [|x [|y l] IH]; [reflexivity|reflexivity|]. exact IH. }
  split; [exact DR|]. split; [exact LR|]. split; [exact VR|].
  assert (RM : 0 <= int64 R < int64 Mm) by (rewrite VR; apply Z.mod_pos_bound; lia).
  destruct (digits_facts 64 (length T) (int64 T - int64 R)) as (LD & RD & VD); [lia|].
  set (D := map (digit 64 (int64 T - int64 R)) (seq 0 (length T))) in *. change (2 ^ Z.of_nat 64) with (2 ^ 64) in RD, VD.
  unfold residue, residue_wires. fold n R D. apply awp_bind. eapply awp_mono.
  { apply (program_awp 64 n 0 (2 ^ 64 - 1) ltac:(lia) LM ltac:(lia) (nb64 HU) Mm eq_refl); auto.
    - apply IM.
    - unfold in_word. rewrite MM. eapply Forall_impl; [|exact DM]. cbv beta. lia.
    - now apply ins_same.
    - change (2 ^ Z.of_nat 64) with (2 ^ 64). fold int64. fold (int64 Mm). apply (wide_fits HU n (int64 Mm) LM UM (conj HZ (proj2 BM)) ops (length xs) (map int64 As) HC); [now rewrite map_length|exact VX]. }
  cbv beta. intros zs [S1 S2]. rewrite grow_shapes in S1 by auto.
  pose proof (of_shape_last _ (length xs + length ops) _ top ltac:(lia) S1) as SR.
  assert (NZ : zs <> []) by (intros ->; apply Forall2_length in S1; unfold same_shape in S1; rewrite repeat_length in S1; cbn [length] in S1; lia).
  pose proof (Forall2_last _ _ _ top [] S2 NZ) as IR. cbv beta in IR. fold R in IR. set (r0 := last zs top) in *.
  pose proof SR as (WR & NR & LLR & MR). cbn [fst snd] in NR, LLR, MR.
  apply awp_bind_all. astep. eapply awp_mono.
  { pose proof (checked_awp rho one md top r0 T R D) as K. cbv zeta in K. rewrite WdT, (sub_word_plain top r0 n T PT SR) in K. change (2 ^ Z.of_nat 64) with (2 ^ 64) in K.
    fold (int64 T) (int64 R) (int64 D) in K. apply K; auto; clear K.
    - unfold in_word. rewrite MT. eapply Forall_impl; [|exact DT]. cbv beta. lia.
    - unfold in_word. rewrite MR. exact RR.
    - rewrite MR. lia.
    - lia.
    - apply (nb64 HU).
    - fold (int64 D) in VD. lia.
    - apply (word_sub HU).
    - apply (sides64 HU); auto. fold (int64 D) in VD. lia. }
  cbv beta. intros _ _. astep. auto.
Qed.

(** Exactly the limbs of the least residue pass, for any prover. *)
Lemma residue_exact wit m top xs Mm T As ops R s rho0 r s' : good_for rho0 s -> chain_inputs rho0 s m top xs Mm T As ops ->
  run wit (residue m top xs ops) s = (Ok r, s') ->
  (completed s rho0 s' (fun rho => wires rho (limbs r) = R) <->
   length R = length Mm /\ digits R /\ int64 R = last (grow op_value (map int64 As) ops) 0 mod int64 Mm).
Proof using HU W.
  intros G HI Hr. split.
  - intros (rho & H1 & H2 & <-). now apply (residue_sound wit m top xs Mm T As ops s rho0 r s' rho).
  - intros (LR & DR & VR). destruct HI as (HM & HT & HX & HL & HZ & HV & HC & Hne).
    destruct (num64_digits _ _ _ _ G HM) as (DM & LM & UM & _). destruct (num64_digits _ _ _ _ G HT) as (DT & _).
    destruct (values_for _ _ _ _ _ G HX HL) as (VV & VL & HXb). pose proof (shapes_for _ _ _ _ _ HX HL) as SX.
    destruct HM as [Hm PM]. destruct HT as [Ht PT].
    assert (KX : forall rho, same_on s rho rho0 -> rho ONE = 1 -> Forall2 (fun x A => is_bn rho (md_of wit) x A /\ in_word x A) xs As).
    { intros rho Hs one. clear -HXb Hs one G W. induction HXb; constructor; auto. eapply bignat_for_is; eauto. }
    rewrite map_length in VL.
    assert (KA : forall rho, same_on s rho rho0 -> rho ONE = 1 -> _) by
      (intros rho Hs one; destruct (holds_of 64 ltac:(lia) (nb64 HU) rho (md_of wit) _ _ _ SX (KX _ Hs one)) as [HH HB];
       exact (residue_awp rho one (md_of wit) m top xs Mm T As ops PM PT (proj1 (bignat_for_is _ _ _ _ _ wit G Hm Hs one)) (proj1 (bignat_for_is _ _ _ _ _ wit G Ht Hs one)) DM DT SX HB HH VV VL HZ HV HC Hne)).
    cbv beta zeta in KA.
    destruct (awp_run wit (residue m top xs ops) s rho0 (residue_wires m top (length xs) Mm T As ops)
      (fun rho r => is_bn rho (md_of wit) r (last (grow (op_limbs 64 (length Mm) Mm) As ops) []) /\ limb_width (bparams r) = 64%nat) r s' G) as (rho & H1 & H2 & H3); [|exact Hr|].
    { intros rho Hs one. apply KA; auto. }
    destruct (KA rho H1 (proj1 (H2 rho (same_on_refl _ _)))) as (K1 & K2 & K3 & _).
    exists rho. split; [exact H1|]. split; [apply H2, same_on_refl|]. destruct (H3 rho (same_on_refl _ _)) as [(I1 & _ & _ & I4 & _) _].
    rewrite (ev_canon _ _ _ I1 I4). apply digits_inj; auto; congruence.
Qed.

(** The honest prover gets there. *)
Lemma residue_honest m top xs Mm T As ops s : good s -> num64_at s m Mm -> num64_at s top T -> Forall2 (num64_at s) xs As ->
  Forall (fun A => length A = length Mm) As -> 0 < int64 Mm -> int64 T = int64 Mm - 1 -> closed_ops (length xs) ops -> ops <> [] ->
  exists r s', run true (residue m top xs ops) s = (Ok r, s') /\ good s' /\ value r = Some (last (grow op_value (map int64 As) ops) 0 mod int64 Mm).
Proof using HU W.
  intros Gs HM HT HX HL HZ HV HC Hne. pose proof (good_good_for s Gs) as G.
  assert (HXf : Forall2 (num64 (asg s) s) xs As) by (clear -HX; induction HX; constructor; auto; now apply at_num64).
  assert (HXb : Forall2 (bignat_at s) xs As) by (clear -HX; induction HX as [|? ? ? ? [? _]]; constructor; auto).
  destruct (num64_digits _ _ _ _ G (at_num64 _ _ _ HM)) as (DM & LM & UM & _). destruct (num64_digits _ _ _ _ G (at_num64 _ _ _ HT)) as (DT & _).
  destruct (values_for _ _ _ _ _ G HXf HL) as (VV & VL & _). pose proof (shapes_for _ _ _ _ _ HXf HL) as SX. rewrite map_length in VL.
  destruct HM as [Hm PM]. destruct HT as [Ht PT].
  assert (KX : forall rho, agree s rho -> rho ONE = 1 -> Forall2 (fun x A => is_bn rho Honest x A /\ in_word x A) xs As).
  { intros rho Hs one. clear -HXb Hs one. induction HXb; constructor; auto. eapply bignat_at_is; eauto. }
  assert (KA : forall rho, agree s rho -> rho ONE = 1 -> _) by
    (intros rho Hs one; destruct (holds_of 64 ltac:(lia) (nb64 HU) rho Honest _ _ _ SX (KX _ Hs one)) as [HH HB];
     exact (residue_awp rho one Honest m top xs Mm T As ops PM PT (proj1 (bignat_at_is _ _ _ _ Hm Hs one)) (proj1 (bignat_at_is _ _ _ _ Ht Hs one)) DM DT SX HB HH VV VL HZ HV HC Hne)).
  cbv beta zeta in KA.
  destruct (honest_run (residue m top xs ops) s (residue_wires m top (length xs) Mm T As ops)
    (fun rho r => is_bn rho Honest r (last (grow (op_limbs 64 (length Mm) Mm) As ops) []) /\ limb_width (bparams r) = 64%nat) Gs) as (r & s' & Hr & Hg & _ & HQ).
  { intros rho Hs one. apply KA; auto. }
  exists r, s'. split; [exact Hr|]. split; [exact Hg|]. destruct (HQ _ (agree_asg s')) as [K1 K2].
  rewrite (is_bn_value _ _ _ _ K1 eq_refl), K2. change (2 ^ Z.of_nat 64) with (2 ^ 64). fold (int64 (last (grow (op_limbs 64 (length Mm) Mm) As ops) [])). f_equal.
  destruct (KA (asg s)) as (_ & _ & K3 & _); [apply agree_asg|exact (proj1 (Gs _ (agree_asg s)))|exact K3].
Qed.

(** Powers by squaring. *)
Lemma residue_power wit m top x Mm T A p R s rho0 r s' : good_for rho0 s -> num64 rho0 s m Mm -> num64 rho0 s top T -> num64 rho0 s x A ->
  length A = length Mm -> 0 < int64 Mm -> int64 T = int64 Mm - 1 -> p <> 1%positive ->
  run wit (residue m top [x] (power_ops p)) s = (Ok r, s') ->
  (completed s rho0 s' (fun rho => wires rho (limbs r) = R) <-> length R = length Mm /\ digits R /\ int64 R = int64 A ^ Zpos p mod int64 Mm).
Proof using HU W.
  intros G HM HT HX HL HZ HV Hp Hr. rewrite <- (power_value (int64 A) p). change [int64 A] with (map int64 [A]).
  apply (residue_exact wit m top [x] Mm T [A] (power_ops p)); auto.
  unfold chain_inputs. repeat match goal with |- _ /\ _ => split end; auto; [apply closed_power|now apply power_nonempty].
Qed.
Lemma residue_power_honest m top x Mm T A p s : good s -> num64_at s m Mm -> num64_at s top T -> num64_at s x A ->
  length A = length Mm -> 0 < int64 Mm -> int64 T = int64 Mm - 1 -> p <> 1%positive ->
  exists r s', run true (residue m top [x] (power_ops p)) s = (Ok r, s') /\ good s' /\ value r = Some (int64 A ^ Zpos p mod int64 Mm).
Proof using HU W.
  intros G HM HT HX HL HZ HV Hp. rewrite <- (power_value (int64 A) p). change [int64 A] with (map int64 [A]).
  apply (residue_honest m top [x] Mm T [A] (power_ops p)); auto; [apply closed_power|now apply power_nonempty].
Qed.

Lemma wide_three x nx y ny z nz : (1 <= nx)%nat -> Z.of_nat nx <= 2 ^ 40 -> 0 <= x < 2 ^ Z.of_nat (64 * nx) -> (1 <= ny)%nat -> Z.of_nat ny <= 2 ^ 40 -> 0 <= y < 2 ^ Z.of_nat (64 * ny) ->
  (1 <= nz)%nat -> Z.of_nat nz <= 2 ^ 40 -> 0 <= z < 2 ^ Z.of_nat (64 * nz) ->
  exists a b c A B C s, run true (let! ab := (let! a := alloc_from_nat (Ok x) 64 nx in let! b := alloc_from_nat (Ok y) 64 ny in Ret (a, b)) in let! c := alloc_from_nat (Ok z) 64 nz in Ret (ab, c)) st_init = (Ok (a, b, c), s) /\
    good s /\ num64_at s a A /\ num64_at s b B /\ num64_at s c C /\ length A = nx /\ length B = ny /\ length C = nz /\ int64 A = x /\ int64 B = y /\ int64 C = z.
Proof using HU W.
  intros H1 H2 H3 H4 H5 H6 H7 H8 H9. destruct (wide_two HU x nx y ny H1 H2 H3 H4 H5 H6) as (a & b & A & B & s1 & R1 & G1 & N1 & N2 & L1 & L2 & V1 & V2).
  destruct (wide_alloc HU z nz s1 G1 H7 H8 H9) as (c & s2 & C & R2 & G2 & N3 & L3 & V3).
  exists a, b, c, A, B, C, s2. rewrite run_bind, R1. cbn [fst snd]. rewrite run_bind, R2. cbn [run].
  pose proof (num64_later _ _ _ _ _ _ R2 N1). pose proof (num64_later _ _ _ _ _ _ R2 N2). auto 12.
Qed.
End Residue.

(** The fifth power of 2^100 modulo 2^127 - 1: exactly 2^119 passes, although 2^119 is not the only number in
    two limbs of 64 bits with that residue. *)
Lemma residue_witness : let E := pallas_f64 log2_down true in
  exists x m t s r s',
    run true (let! ab := (let! a := alloc_from_nat (Ok (2 ^ 100)) 64 2 in let! b := alloc_from_nat (Ok (2 ^ 127 - 1)) 64 2 in Ret (a, b)) in let! c := alloc_from_nat (Ok (2 ^ 127 - 2)) 64 2 in Ret (ab, c)) st_init = (Ok (x, m, t), s) /\
    good s /\ run true (residue m t [x] (power_ops 5)) s = (Ok r, s') /\ good s' /\ value r = Some (2 ^ 119) /\
    completed s (asg s) s' (fun rho => wires rho (limbs r) = [0; 2 ^ 55]) /\
    ~ completed s (asg s) s' (fun rho => wires rho (limbs r) = [2 ^ 64 - 1; 2 ^ 55 + 2 ^ 63 - 1]) /\
    (2 ^ 127 - 1 | int64 [2 ^ 64 - 1; 2 ^ 55 + 2 ^ 63 - 1] - int64 [0; 2 ^ 55]).
Proof.
  intros E. pose proof (proj1 (usual_pallas log2_down true log2_down_faithful)) as HU. pose proof (wf_pallas_f64 log2_down true) as W. fold E in HU, W.
  destruct (wide_three HU (2 ^ 100) 2 (2 ^ 127 - 1) 2 (2 ^ 127 - 2) 2) as (x & m & t & A & Mm & T & s & R & G & NA & NM & NT & LA & LM & LT & VA & VM & VT); try lia.
  destruct (residue_power_honest HU m t x Mm T A 5 s G NM NT NA ltac:(congruence) ltac:(rewrite VM; lia) ltac:(rewrite VM, VT; lia) ltac:(discriminate)) as (r & s' & H1 & H2 & H3).
  pose proof (fun R => residue_power HU true m t x Mm T A 5 R s (asg s) r s' (good_good_for s G) (at_num64 _ _ _ NM) (at_num64 _ _ _ NT) (at_num64 _ _ _ NA) ltac:(congruence) ltac:(rewrite VM; lia) ltac:(rewrite VM, VT; lia) ltac:(discriminate) H1) as K.
  rewrite VA, VM in H3, K. change ((2 ^ 100) ^ 5 mod (2 ^ 127 - 1)) with (2 ^ 119) in H3, K. rewrite LM in K.
  exists x, m, t, s, r, s'. split; [exact R|]. split; [exact G|]. split; [exact H1|]. split; [exact H2|]. split; [exact H3|]. split.
  { apply K. split; [reflexivity|]. split; [|reflexivity]. repeat constructor; lia. }
  split; [|exists 1; reflexivity]. intros N. apply K in N. destruct N as (_ & _ & N). vm_compute in N. discriminate.
Qed.
