(** The output stage of header_step.rs and chains of steps. *)
From Coq Require Import ZArith Bool String List Lia ZifyBool ZifyNat Setoid Morphisms.
From Verif.Model Require Import Base Sha256 CS Bellpepper Util Poly Bignat Ints Median Difficulty HeaderStep.
From Verif.Spec Require Import Spec SpecHeader SpecChain.
From Verif.Proofs Require Import Field Wp Lc Arith Convert Limbs Owp Pwp BignatEq MedianP MedianV Shp TopBignat1 TopMedian DifficultyP TopDifficulty HashP HeaderInts HeaderBytes Panics HeaderPanics HeaderP TopGadget.
Import ListNotations.
Local Open Scope string_scope.
Local Open Scope Z_scope.
Local Open Scope list_scope.

(** A list of known length, element by element. *)
Lemma list16 {A} (l : list A) : List.length l = 16%nat ->
  exists a0 a1 a2 a3 a4 a5 a6 a7 a8 a9 a10 a11 a12 a13 a14 a15, l = [a0;a1;a2;a3;a4;a5;a6;a7;a8;a9;a10;a11;a12;a13;a14;a15].
Proof.
  intros H. do 16 (destruct l as [|? l]; [discriminate H|]). destruct l; [|discriminate H]. repeat eexists.
Qed.

Section Out.
Context {E : Env} {W : Wf E}.

(** ** Too short a vector *)
Lemma vec_set_ok {A} i (a : A) : forall l l', vec_set i a l = Ok l' -> List.length l' = List.length l /\ (i < List.length l)%nat.
Proof.
  induction i as [|i IH]; intros [|b l] l' H; try discriminate H; cbn [vec_set] in H.
  - injection H as <-. cbn [List.length]. lia.
  - destruct (vec_set i a l) as [l1|e|] eqn:H1; try discriminate H. cbn [rbind] in H. injection H as <-.
    destruct (IH _ _ H1). cbn [List.length]. lia.
Qed.
Lemma vec_set_nerr {A} i (a : A) : forall l e, vec_set i a l <> Err e.
Proof.
  induction i as [|i IH]; intros [|b l] e; try discriminate. cbn [vec_set]. specialize (IH l).
  destruct (vec_set i a l) as [l1|e1|]; try discriminate. intros _. now apply (IH e1).
Qed.
Lemma out_copy_rets nm i a l : rets (out_copy nm i a l) (fun l' => List.length l' = List.length l /\ (i < List.length l)%nat).
Proof.
  unfold out_copy. apply rets_bind, rets_lift. intros l' H. apply rets_skip. intros o. apply rets_skip. intros _. cbn [rets].
  exact (vec_set_ok _ _ _ _ H).
Qed.
Lemma out_copy_noerr wit nm i a l : noerr wit (out_copy nm i a l).
Proof.
  unfold out_copy. apply noerr_bind; [apply noerr_lift; apply vec_set_nerr|]. intros l'.
  apply noerr_bind; [apply noerr_lift; exact (nerr_idx _ _)|]. intros o. apply noerr_bind; [apply noerr_enforce|]. intros _. apply noerr_ret.
Qed.
Lemma copies_rets z : forall is l, rets (foldM (fun z_out i =>
     let! zi1 := lift (idx z (i + 1)) in
     out_copy (Nmi "timestamp out " i "") i zi1 z_out) is l) (fun l' => List.length l' = List.length l).
Proof.
  induction is as [|i is IH]; intros l; cbn [foldM]; [reflexivity|]. apply rets_bind. apply rets_skip. intros a.
  eapply rets_mono; [apply out_copy_rets|]. intros l1 [H1 _]. eapply rets_mono; [apply IH|]. intros l2 H2. cbv beta in *. congruence.
Qed.
Lemma copies_noerr wit z : forall is l, noerr wit (foldM (fun z_out i =>
     let! zi1 := lift (idx z (i + 1)) in
     out_copy (Nmi "timestamp out " i "") i zi1 z_out) is l).
Proof.
  induction is as [|i is IH]; intros l; cbn [foldM]; [apply noerr_ret|]. apply noerr_bind; [|exact IH].
  apply noerr_bind; [apply noerr_lift; exact (nerr_idx _ _)|]. intros a. apply out_copy_noerr.
Qed.
Lemma stage_out_noerr wit z_out z h t tg st w : noerr wit (stage_out z_out z h t tg st w).
Proof.
  unfold stage_out.
  repeat first [apply noerr_bind; [first [apply out_copy_noerr|apply copies_noerr|apply noerr_unwrap|apply noerr_enforce
    |apply noerr_lift; first [apply vec_set_nerr|exact (nerr_idx _ _)]]|intros ?]|apply noerr_ret].
Qed.
Lemma stage_out_rets z_out z h t tg st w : rets (stage_out z_out z h t tg st w) (fun _ => (16 <= List.length z_out)%nat).
Proof.
  unfold stage_out. apply rets_bind. eapply rets_mono; [apply out_copy_rets|]. intros l1 [E1 _].
  apply rets_bind. eapply rets_mono; [apply copies_rets|]. cbv beta. intros l2 E2.
  apply rets_bind. eapply rets_mono; [apply out_copy_rets|]. intros l3 [E3 _].
  apply rets_bind. eapply rets_mono; [apply out_copy_rets|]. intros l4 [E4 _].
  apply rets_bind. eapply rets_mono; [apply out_copy_rets|]. intros l5 [E5 _].
  apply rets_skip. intros z14. apply rets_skip. intros o14. apply rets_bind, rets_lift. intros l6 H6. apply vec_set_ok in H6. destruct H6 as [E6 _].
  apply rets_skip. intros _. apply rets_skip. intros z15. apply rets_skip. intros o15. apply rets_bind, rets_lift. intros l7 H7. apply vec_set_ok in H7.
  apply rets_skip. intros _. cbn [rets]. lia.
Qed.
Theorem top_out_short wit z_out z h t tg st w s : (List.length z_out < 16)%nat ->
  fst (run wit (stage_out z_out z h t tg st w) s) = Panic.
Proof.
  intros HL. pose proof (stage_out_noerr wit z_out z h t tg st w s) as HN.
  destruct (run wit (stage_out z_out z h t tg st w) s) as [[o|e|] s'] eqn:Hr; [|exfalso; now apply (HN e)|reflexivity].
  pose proof (rets_run _ _ _ _ _ _ (stage_out_rets z_out z h t tg st w) Hr). cbv beta in *. lia.
Qed.

(** ** What the stage returns and enforces *)
Definition out_of (z : list allocated_num) (h t tg st o14 o15 : allocated_num) : list allocated_num :=
  h :: firstn 10 (skipn 2 z) ++ [t; tg; st; o14; o15].
Theorem top_out_sound wit z_out z h t tg st w s out s' : List.length z_out = 16%nat -> List.length z = 16%nat ->
  run wit (stage_out z_out z h t tg st w) s = (Ok out, s') ->
  exists z14 z15 o14 o15, nth_error z 14 = Some z14 /\ nth_error z 15 = Some z15 /\ out = h :: firstn 10 (skipn 2 z) ++ [t; tg; st; o14; o15] /\
    forall rho, sat rho s' -> feval rho (lc_var (an_var o14)) = fmk (feval rho (lc_var (an_var z14)) + 1) /\
      feval rho (lc_var (an_var o15)) = fmk (feval rho (lc_var (an_var z15)) + feval rho (lc_var (an_var w))).
Proof.
  intros HO HZ Hr. destruct (list16 _ HO) as (a0&a1&a2&a3&a4&a5&a6&a7&a8&a9&a10&a11&a12&a13&a14&a15&->).
  destruct (list16 _ HZ) as (z0&z1&z2&z3&z4&z5&z6&z7&z8&z9&z10&z11&z12&z13&z14&z15&->). clear HO HZ.
  match type of Hr with run _ (stage_out ?o ?z _ _ _ _ _) _ = _ => set (zo := o) in *; set (zz := z) in * end.
  assert (SH : rets (stage_out zo zz h t tg st w) (fun out => exists o14 o15, out = out_of zz h t tg st o14 o15)).
  { unfold stage_out, zo, zz. cbn [seq foldM]. unfold out_copy. cbn [vec_set rbind lift bind Nat.add idx nth_error unwrap enforce rets].
    apply rets_skip. intros o14. cbn [vec_set rbind lift bind idx nth_error unwrap enforce rets].
    apply rets_skip. intros o15. cbn [vec_set rbind lift bind idx nth_error unwrap enforce rets].
    exists o14, o15. reflexivity. }
  destruct (rets_run _ _ _ _ _ _ SH Hr) as (o14 & o15 & HE). exists z14, z15, o14, o15. split; [reflexivity|]. split; [reflexivity|].
  split; [exact HE|]. intros rho Hs. pose proof (proj1 Hs) as one.
  assert (HW : swp Any rho (stage_out zo zz h t tg st w) (fun out => forall o14 o15, out = out_of zz h t tg st o14 o15 ->
    eqp (rho (an_var o14)) (rho (an_var z14) + 1) /\ eqp (rho (an_var o15)) (rho (an_var z15) + rho (an_var w)))).
  { unfold stage_out, zo, zz. cbn [seq foldM]. unfold out_copy. cbn [vec_set rbind lift bind Nat.add idx nth_error unwrap enforce swp].
    repeat match goal with |- csat _ _ -> _ => intros _ end.
    apply swp_skip. intros p14. cbn [vec_set rbind lift bind idx nth_error unwrap enforce swp]. rewrite csat_R1. lcs. intros C1.
    apply swp_skip. intros p15. cbn [vec_set rbind lift bind idx nth_error unwrap enforce swp]. rewrite csat_R1. lcs. intros C2.
    intros q14 q15 HQ. unfold out_of in HQ. cbn [firstn skipn app] in HQ.
    assert (p14 = q14) by congruence. assert (p15 = q15) by congruence. subst q14 q15. rewrite one in *.
    split; [rewrite <- C1; ering|rewrite <- C2; ering]. }
  apply (swp_run_any _ _ _ _ _ _ _ Hr Hs) in HW. destruct (HW _ _ HE) as [K1 K2].
  unfold feval. rewrite !lc_eval_var. split; apply eqp_eq.
  - rewrite K1, eqp_fmk. reflexivity.
  - rewrite K2, !eqp_fmk. reflexivity.
Qed.

Theorem top_out_complete z_out z h t tg st w s z14 z15 c p v : List.length z_out = 16%nat -> List.length z = 16%nat -> good s ->
  nth_error z 14 = Some z14 -> nth_error z 15 = Some z15 -> an_at s z14 c -> an_at s z15 p -> an_at s w v ->
  exists o14 o15 s', run true (stage_out z_out z h t tg st w) s = (Ok (h :: firstn 10 (skipn 2 z) ++ [t; tg; st; o14; o15]), s') /\
    good s' /\ an_at s' o14 (fmk (c + 1)) /\ an_at s' o15 (fmk (p + v)).
Proof.
  intros HO HZ G H14 H15 A14 A15 Aw. destruct (list16 _ HO) as (a0&a1&a2&a3&a4&a5&a6&a7&a8&a9&a10&a11&a12&a13&a14&a15&->).
  destruct (list16 _ HZ) as (z0&z1&z2&z3&z4&z5&z6&z7&z8&z9&z10&z11&z12&z13&y14&y15&->). clear HO HZ.
  cbn [nth_error] in H14, H15. injection H14 as ->. injection H15 as ->.
  match goal with |- context [stage_out ?o ?z _ _ _ _ _] => set (zo := o) in *; set (zz := z) in * end.
  destruct (hwp_run (stage_out zo zz h t tg st w) s (fun rho out => exists o14 o15, out = out_of zz h t tg st o14 o15 /\
    is_an rho o14 (fmk (c + 1)) /\ is_an rho o15 (fmk (p + v))) G) as (out & s' & Hr & Hg & _ & HQ).
  { intros rho Hag one. pose proof (an_at_is _ _ _ _ A14 Hag one) as I14. pose proof (an_at_is _ _ _ _ A15 Hag one) as I15.
    pose proof (an_at_is _ _ _ _ Aw Hag one) as Iw.
    unfold stage_out, zo, zz. cbn [seq foldM]. unfold out_copy. cbn [vec_set rbind lift bind Nat.add idx nth_error unwrap enforce hwp].
    repeat match goal with |- csat _ _ /\ _ => split; [apply csat_R1; lcs; ering|] end.
    eapply hwp_bind. eapply hwp_mono; [apply (an_u_ok rho _ _ (fmk (c + 1))); [|apply fmk_canon]|].
    { destruct I14 as (V & _ & _). rewrite V. cbn [unwrap rbind]. unfold fadd, fone. f_equal. apply eqp_eq. rewrite eqp_fmk. reflexivity. }
    intros o14 I1. cbn [vec_set rbind lift bind idx nth_error unwrap enforce hwp].
    split; [apply csat_R1; lcs; destruct I14 as (_ & _ & V), I1 as (_ & _ & V1); rewrite V, V1, one, eqp_fmk; ering|].
    eapply hwp_bind. eapply hwp_mono; [apply (an_u_ok rho _ _ (fmk (p + v))); [|apply fmk_canon]|].
    { destruct I15 as (V & _ & _), Iw as (V1 & _ & _). rewrite V, V1. cbn [unwrap rbind]. unfold fadd. f_equal. apply eqp_eq. apply eqp_ring; ring. }
    intros o15 I2. cbn [vec_set rbind lift bind idx nth_error unwrap enforce hwp].
    split; [apply csat_R1; lcs; destruct I15 as (_ & _ & V), Iw as (_ & _ & V1), I2 as (_ & _ & V2); rewrite V, V1, V2, one, eqp_fmk; ering|].
    exists o14, o15. split; [reflexivity|]. split; assumption. }
  destruct (HQ (asg s') (agree_asg _)) as (o14 & o15 & HE & _ & _). exists o14, o15, s'. rewrite Hr, HE. split; [reflexivity|]. split; [exact Hg|].
  assert (U : forall rho, agree s' rho -> is_an rho o14 (fmk (c + 1)) /\ is_an rho o15 (fmk (p + v))).
  { intros rho Ha. destruct (HQ rho Ha) as (q14 & q15 & HE2 & I1 & I2). rewrite HE in HE2. unfold out_of, zz in HE2. cbn [firstn skipn app] in HE2.
    assert (o14 = q14) by congruence. assert (o15 = q15) by congruence. subst q14 q15. split; assumption. }
  split; apply (is_an_at s'); auto; intros rho Ha; apply (U rho Ha).
Qed.

(** ** Chains of steps *)
Lemma step_facts b zv zv' : step_values b zv zv' -> List.length zv = 16%nat /\
  zv' = b_hash b :: firstn 10 (skipn 2 zv) ++ [b_time b; b_target b; nth 13 zv 0; fmk (nth 14 zv 0 + 1); fmk (nth 15 zv 0 + b_work b)].
Proof.
  intros (wit & zo & z & h & t & tg & st & w & s & out & s' & rho & LO & LZ & H13 & Hr & Hs & <- & <- & <- & <- & <- & <-).
  destruct (top_out_sound wit zo z h t tg st w s out s' LO LZ Hr) as (z14 & z15 & o14 & o15 & H14 & H15 & HE & HF).
  destruct (HF rho Hs) as [F1 F2].
  destruct (list16 _ LZ) as (x0&x1&x2&x3&x4&x5&x6&x7&x8&x9&x10&x11&x12&x13&x14&x15&->). cbn [nth_error] in H13, H14, H15.
  assert (x13 = st) by congruence. assert (x14 = z14) by congruence. assert (x15 = z15) by congruence. subst x13 x14 x15. subst out.
  split; [reflexivity|]. unfold values. cbn [firstn skipn app map nth].
  rewrite F1, F2. reflexivity.
Qed.
Lemma skipn_skipn' {A} n m (l : list A) : skipn n (skipn m l) = skipn (m + n) l.
Proof. revert l. induction m as [|m IH]; intros l; cbn [Nat.add skipn]; [reflexivity|]. destruct l; [now rewrite skipn_nil|apply IH]. Qed.
Lemma last_n_app {A} n (l r : list A) : (n <= List.length l)%nat -> last_n n (last_n n l ++ r) = last_n n (l ++ r).
Proof.
  intros H. unfold last_n. rewrite !app_length, skipn_length.
  transitivity (skipn (List.length l + List.length r - n - (List.length l - n)) (skipn (List.length l - n) (l ++ r))).
  - rewrite (skipn_app (List.length l - n)). replace (List.length l - n - List.length l)%nat with 0%nat by lia. cbn [skipn]. f_equal. lia.
  - rewrite skipn_skipn'. f_equal. lia.
Qed.
Theorem top_chain z bs z' : chain z bs z' -> List.length z = 16%nat -> Forall canon z ->
  nth 13 z' 0 = nth 13 z 0 /\
  nth 14 z' 0 = fmk (nth 14 z 0 + Z.of_nat (List.length bs)) /\
  nth 15 z' 0 = fmk (nth 15 z 0 + sum_work bs) /\
  firstn 11 (skipn 1 z') = last_n 11 (firstn 11 (skipn 1 z) ++ map b_time bs) /\
  nth 0 z' 0 = last (map b_hash bs) (nth 0 z 0) /\ nth 12 z' 0 = last (map b_target bs) (nth 12 z 0).
Proof.
  intros HC. induction HC as [z|z b z1 bs z' HS HC IH]; intros HL HF.
  - cbn [map last sum_work fold_right List.length]. unfold sum_work; cbn [map fold_right Z.of_nat]; rewrite app_nil_r, !Z.add_0_r.
    assert (K : forall i, fmk (nth i z 0) = nth i z 0).
    { intros i. destruct (Nat.lt_ge_cases i (List.length z)) as [Hi|Hi]; [|rewrite nth_overflow by auto; apply fmk_id, canon_0].
      apply fmk_id. rewrite Forall_forall in HF. apply HF. apply nth_In; auto. }
    rewrite !K. repeat (split; [reflexivity|]). split; [|split; reflexivity].
    unfold last_n. rewrite firstn_length, skipn_length, HL. reflexivity.
  - destruct (step_facts _ _ _ HS) as [_ E1].
    assert (F1 : Forall canon z1).
    { destruct HS as (wit & zo & zz & h & t & tg & st & w & s & out & s' & rho & _ & _ & _ & _ & _ & _ & <- & _).
      unfold values. apply Forall_forall. intros x Hx. apply in_map_iff in Hx. destruct Hx as (y & <- & _). apply fmk_canon. }
    destruct (list16 _ HL) as (x0&x1&x2&x3&x4&x5&x6&x7&x8&x9&x10&x11&x12&x13&x14&x15&->).
    cbn [nth firstn skipn app] in E1. subst z1. destruct (IH eq_refl F1) as (I1 & I2 & I3 & I4 & I5 & I6). clear IH HC HS.
    cbn [nth firstn skipn app] in *. split; [exact I1|]. split.
    { rewrite I2. cbn [List.length]. apply eqp_eq. rewrite eqp_fmk. apply eqp_ring. lia. }
    split. { rewrite I3. unfold sum_work. cbn [map fold_right]. apply eqp_eq. rewrite eqp_fmk. apply eqp_ring. ring. }
    split. { rewrite I4. cbn [map].
      change (x1 :: x2 :: x3 :: x4 :: x5 :: x6 :: x7 :: x8 :: x9 :: x10 :: x11 :: b_time b :: map b_time bs) with
        (([x1;x2;x3;x4;x5;x6;x7;x8;x9;x10;x11] ++ [b_time b]) ++ map b_time bs).
      rewrite <- (last_n_app 11) by (cbn; lia). reflexivity. }
    destruct bs as [|b2 bs]; [|cbn [map] in *]; split; auto.
    + rewrite I5. cbn [map]. clear. generalize (b_hash b2) (map b_hash bs). intros a l. revert a. induction l as [|c l IH]; intros a; [reflexivity|]. cbn [last] in *. exact (IH c).
    + rewrite I6. cbn [map]. clear. generalize (b_target b2) (map b_target bs). intros a l. revert a. induction l as [|c l IH]; intros a; [reflexivity|]. cbn [last] in *. exact (IH c).
Qed.

Lemma vals_good vs : good (vals_st vs).
Proof. intros rho [H _]. split; [apply (H 0%nat); cbn; lia|]. constructor. Qed.
Lemma vnum_at vs i : Forall canon vs -> (i < List.length vs)%nat -> an_at (vals_st vs) (vnum vs i) (nth i vs 0).
Proof.
  intros HF Hi. assert (C : canon (nth i vs 0)) by (rewrite Forall_forall in HF; apply HF, nth_In; auto).
  split; [reflexivity|]. split; [exact C|]. intros rho [_ H] _. apply feval_eqp; [exact C|]. rewrite lc_eval_var. cbn [vnum an_var]. rewrite (H i Hi). reflexivity.
Qed.
Lemma step_exists b zv : List.length zv = 16%nat -> Forall canon zv -> block_ok b -> exists zv', step_values b zv zv' /\ List.length zv' = 16%nat /\ Forall canon zv'.
Proof.
  intros HL HF (B1 & B2 & B3 & B4). set (vs := zv ++ [b_hash b; b_time b; b_target b; b_work b]).
  assert (LV : List.length vs = 20%nat) by (unfold vs; rewrite app_length, HL; reflexivity).
  assert (FV : Forall canon vs) by (unfold vs; apply Forall_app; split; [exact HF|]; repeat (constructor; auto)).
  set (z := map (vnum vs) (seq 0 16)).
  assert (AT : forall i, (i < 20)%nat -> an_at (vals_st vs) (vnum vs i) (nth i vs 0)) by (intros i Hi; apply vnum_at; auto; lia).
  destruct (top_out_complete z z (vnum vs 16) (vnum vs 17) (vnum vs 18) (vnum vs 13) (vnum vs 19) (vals_st vs) (vnum vs 14) (vnum vs 15)
     (nth 14 vs 0) (nth 15 vs 0) (nth 19 vs 0)) as (o14 & o15 & s' & Hr & Hg & _); [reflexivity|reflexivity|apply vals_good|reflexivity|reflexivity| | | |].
  1-3: apply AT; lia.
  assert (AG : agree (vals_st vs) (asg s')) by (eapply run_agree; [exact Hr|reflexivity|apply agree_asg]).
  assert (VV : forall i, (i < 20)%nat -> feval (asg s') (lc_var (an_var (vnum vs i))) = nth i vs 0).
  { intros i Hi. destruct (AT i Hi) as (_ & _ & HC). apply HC; [exact AG|]. apply (Hg _ (agree_asg _)). }
  eexists. split; [|split].
  - exists true, z, z, (vnum vs 16), (vnum vs 17), (vnum vs 18), (vnum vs 13), (vnum vs 19), (vals_st vs). eexists. exists s', (asg s').
    split; [reflexivity|]. split; [reflexivity|]. split; [reflexivity|]. split; [exact Hr|]. split; [apply Hg, agree_asg|].
    split; [|split; [reflexivity|]].
    + unfold values, z. rewrite map_map. transitivity (map (fun i => nth i vs 0) (seq 0 16)).
      * apply map_ext_in. intros i Hi. apply in_seq in Hi. apply VV. lia.
      * unfold vs. destruct (list16 _ HL) as (x0&x1&x2&x3&x4&x5&x6&x7&x8&x9&x10&x11&x12&x13&x14&x15&->). reflexivity.
    + rewrite !VV by lia. unfold vs. rewrite !app_nth2 by lia. rewrite HL. cbn [Nat.sub nth]. split; [reflexivity|]. split; [reflexivity|]. split; reflexivity.
  - reflexivity.
  - unfold values. apply Forall_forall. intros x Hx. apply in_map_iff in Hx. destruct Hx as (y & <- & _). apply fmk_canon.
Qed.
(** Chains of any length exist from any state. *)
Theorem top_chain_exists bs : Forall block_ok bs -> forall z, List.length z = 16%nat -> Forall canon z -> exists z', chain z bs z'.
Proof.
  induction 1 as [|b bs HB HF IH]; intros z HL HZ; [exists z; constructor|].
  destruct (step_exists b z HL HZ HB) as (z1 & S1 & L1 & F1). destruct (IH z1 L1 F1) as (z' & H). exists z'. econstructor; eauto.
Qed.
End Out.
