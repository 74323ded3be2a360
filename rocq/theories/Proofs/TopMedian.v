(** Final forms for the comparisons and the median. *)
From Coq Require Import ZArith Znumtheory Bool String List Lia Setoid Morphisms Permutation Sorted ZifyBool ZifyNat.
From Verif.Model Require Import Base CS Bellpepper Util Poly Bignat Ints Median.
From Verif.Spec Require Import Spec.
From Verif.Proofs Require Import Field Arith Convert Limbs Wp Lc BitNum BoolP BignatEq TopBignat1 Owp Shp TopBignat3 MedianP MedianV.
Import ListNotations.
Local Open Scope Z_scope.

(** ** The median of a list *)
Lemma top_median_ok ts : ts <> [] -> exists m l, compute_median_timestamp ts = Ok (m, l) /\
  Permutation ts l /\ StronglySorted Z.le l /\ nth_error l (List.length ts / 2) = Some m /\ In m ts /\
  (List.length (filter (fun t => (t <? m)%Z) ts) <= List.length ts / 2)%nat /\
  (List.length (filter (fun t => (m <? t)%Z) ts) < (List.length ts + 1) / 2)%nat.
Proof.
  intros Hne. unfold compute_median_timestamp. pose proof (sort_perm ts) as HP. pose proof (sort_sorted ts) as HS.
  pose proof (Permutation_length HP) as HL. rewrite <- HL.
  assert (HK : (List.length ts / 2 < List.length (sort ts))%nat).
  { rewrite <- HL. apply Nat.div_lt; [|lia]. destruct ts; [congruence|cbn; lia]. }
  destruct (nth_error (sort ts) (List.length ts / 2)) as [m|] eqn:Hn; [|apply nth_error_None in Hn; lia].
  exists m, (sort ts). unfold idx. rewrite Hn. cbn [rbind]. split; auto. split; auto. split; auto. split; auto.
  destruct (sorted_counts _ _ _ HS Hn) as [H1 H2].
  rewrite <- (count_perm _ _ _ HP) in H1. rewrite <- (count_perm _ _ _ HP) in H2. unfold count in H1, H2. rewrite <- HL in H2.
  split. { eapply Permutation_in; [symmetry; exact HP|]. eapply nth_error_In; eauto. }
  split; auto. pose proof (Nat.div_mod (List.length ts) 2 ltac:(lia)). pose proof (Nat.div_mod (List.length ts + 1) 2 ltac:(lia)).
  pose proof (Nat.mod_upper_bound (List.length ts) 2 ltac:(lia)). pose proof (Nat.mod_upper_bound (List.length ts + 1) 2 ltac:(lia)).
  assert (List.length ts <> 0)%nat by (destruct ts; [congruence|cbn; lia]). lia.
Qed.
Lemma top_median_unique ts m l m' : compute_median_timestamp ts = Ok (m, l) ->
  (List.length (filter (fun t => (t <? m')%Z) ts) <= List.length ts / 2)%nat ->
  (List.length (filter (fun t => (m' <? t)%Z) ts) < (List.length ts + 1) / 2)%nat -> m' = m.
Proof.
  intros Hc H1 H2. unfold compute_median_timestamp, idx in Hc. pose proof (sort_perm ts) as HP. pose proof (sort_sorted ts) as HS.
  pose proof (Permutation_length HP) as HL. rewrite <- HL in Hc.
  destruct (nth_error (sort ts) (List.length ts / 2)) as [m0|] eqn:Hn; cbn [rbind] in Hc; [|discriminate]. injection Hc as -> <-.
  fold (count (fun t => (t <? m')%Z) ts) in H1. fold (count (fun t => (m' <? t)%Z) ts) in H2. rewrite (count_perm _ _ _ HP) in H1. rewrite (count_perm _ _ _ HP) in H2.
  destruct (nth_error_split _ _ Hn) as (l1 & l2 & Hl & Hk). rewrite Hl in HS. destruct (sorted_split _ _ _ HS) as [S1 S2].
  rewrite Hl in H1, H2. rewrite count_app, count_cons in H1, H2.
  assert (HA : forall f k, Forall (fun x => f x = true) k -> count f k = List.length k).
  { intros f k. induction 1; auto. rewrite count_cons, H, IHForall. reflexivity. }
  assert (HLL : List.length ts = (List.length l1 + S (List.length l2))%nat) by (rewrite HL, Hl, app_length; reflexivity).
  pose proof (Nat.div_mod (List.length ts) 2 ltac:(lia)). pose proof (Nat.div_mod (List.length ts + 1) 2 ltac:(lia)).
  pose proof (Nat.mod_upper_bound (List.length ts) 2 ltac:(lia)). pose proof (Nat.mod_upper_bound (List.length ts + 1) 2 ltac:(lia)).
  destruct (Z.lt_trichotomy m' m) as [C|[C|C]]; auto; exfalso.
  - rewrite (proj2 (Z.ltb_lt m' m) C) in H2. rewrite (HA (fun t => (m' <? t)%Z) l2) in H2; [lia|].
    eapply Forall_impl; [|exact S2]. cbv beta. intros. lia.
  - rewrite (proj2 (Z.ltb_lt m m') C) in H1. rewrite (HA (fun t => (t <? m')%Z) l1) in H1; [lia|].
    eapply Forall_impl; [|exact S1]. cbv beta. intros. lia.
Qed.
Lemma top_median_empty : compute_median_timestamp [] = Panic.
Proof. reflexivity. Qed.

Section Top.
Context {E : Env} {W : Wf E}.

(** ** Honest comparisons *)
Lemma top_less_than_low a b x y n s : good s -> an_at s a x -> an_at s b y ->
  (n <= 126)%nat -> 2 ^ (Z.of_nat n + 2) < modulus -> x < 2 ^ (Z.of_nat n + 1) -> y < 2 ^ (Z.of_nat n + 1) ->
  exists r s', run true (less_than a b n) s = (Ok r, s') /\ good s' /\ boolean_at s' r (x <? y).
Proof.
  intros G Ha Hb Hn HP Hx Hy.
  assert (Cx : canon x) by apply Ha. assert (Cy : canon y) by apply Hb.
  assert (HQ : 2 ^ (Z.of_nat n + 2) = 2 * 2 ^ (Z.of_nat n + 1)) by (rewrite <- Z.pow_succ_r by lia; f_equal; lia).
  assert (HN : (n < NUM_BITS)%nat).
  { apply num_bits_above. pose proof (Z.pow_le_mono_r 2 (Z.of_nat n) (Z.of_nat n + 2) eq_refl ltac:(lia)). lia. }
  destruct (hwp_run (less_than a b n) s (fun rho r => is_bool rho r (x <? y)) G) as (r & s' & Hr & Hg & _ & HQ').
  { intros rho Hag one. pose proof (an_at_is _ _ _ _ Ha Hag one) as Ia. pose proof (an_at_is _ _ _ _ Hb Hag one) as Ib.
    rewrite <- (fmk_id x Cx) in Ia. rewrite <- (fmk_id y Cy) in Ib. apply (less_than_int rho one a b n x y Ia Ib); auto.
    destruct Cx, Cy. lia. }
  exists r, s'. split; auto. split; auto. apply is_boolean_at. exact HQ'.
Qed.
Lemma top_leq_low a b x y n s : good s -> an_at s a x -> an_at s b y ->
  (n <= 126)%nat -> 2 ^ (Z.of_nat n + 2) < modulus -> x < 2 ^ (Z.of_nat n + 1) -> y < 2 ^ (Z.of_nat n + 1) ->
  exists r s', run true (leq a b n) s = (Ok r, s') /\ good s' /\ boolean_at s' r (x <=? y).
Proof.
  intros G Ha Hb Hn HP Hx Hy.
  assert (Cx : canon x) by apply Ha. assert (Cy : canon y) by apply Hb.
  assert (HQ : 2 ^ (Z.of_nat n + 2) = 2 * 2 ^ (Z.of_nat n + 1)) by (rewrite <- Z.pow_succ_r by lia; f_equal; lia).
  assert (HN : (n < NUM_BITS)%nat).
  { apply num_bits_above. pose proof (Z.pow_le_mono_r 2 (Z.of_nat n) (Z.of_nat n + 2) eq_refl ltac:(lia)). lia. }
  destruct (hwp_run (leq a b n) s (fun rho r => is_bool rho r (x <=? y)) G) as (r & s' & Hr & Hg & _ & HQ').
  { intros rho Hag one. pose proof (an_at_is _ _ _ _ Ha Hag one) as Ia. pose proof (an_at_is _ _ _ _ Hb Hag one) as Ib.
    rewrite <- (fmk_id x Cx) in Ia. rewrite <- (fmk_id y Cy) in Ib. apply (leq_int rho one a b n x y Ia Ib); auto.
    destruct Cx, Cy. lia. }
  exists r, s'. split; auto. split; auto. apply is_boolean_at. exact HQ'.
Qed.

Lemma wide_false n X Y : 0 <= X -> X < 2 ^ (Z.of_nat n + 1) -> 0 <= Y -> Y <= 2 ^ (Z.of_nat n + 1) -> 2 ^ (Z.of_nat n + 3) < modulus ->
  (fsub (fadd (fmk X) (fmk (2 ^ (Z.of_nat n + 2)))) (fmk Y) <? 2 ^ Z.of_nat (1 + n)) = false.
Proof.
  intros X0 X1 Y0 Y1 HP.
  assert (HQ : 2 ^ (Z.of_nat n + 2) = 2 * 2 ^ (Z.of_nat n + 1)) by (rewrite <- Z.pow_succ_r by lia; f_equal; lia).
  assert (HQ3 : 2 ^ (Z.of_nat n + 3) = 2 * 2 ^ (Z.of_nat n + 2)) by (rewrite <- Z.pow_succ_r by lia; f_equal; lia).
  assert (HE : fsub (fadd (fmk X) (fmk (2 ^ (Z.of_nat n + 2)))) (fmk Y) = X + 2 ^ (Z.of_nat n + 2) - Y).
  { apply canon_eqp; [apply fsub_canon|split; lia|]. unfold fsub, fadd. rewrite !eqp_fmk. reflexivity. }
  rewrite HE. replace (Z.of_nat (1 + n)) with (Z.of_nat n + 1) by lia. apply Z.ltb_ge. lia.
Qed.
Lemma wide_bits n : 2 ^ (Z.of_nat n + 3) < modulus -> (n < NUM_BITS)%nat.
Proof.
  intros H. apply num_bits_above. pose proof (Z.pow_le_mono_r 2 (Z.of_nat n) (Z.of_nat n + 3) eq_refl ltac:(lia)). lia.
Qed.
Lemma top_less_than_high a b x y n s : good s -> an_at s a x -> an_at s b y ->
  (127 <= n <= 252)%nat -> 2 ^ (Z.of_nat n + 3) < modulus -> x < 2 ^ (Z.of_nat n + 1) -> y < 2 ^ (Z.of_nat n + 1) ->
  exists r s', run true (less_than a b n) s = (Ok r, s') /\ good s' /\ boolean_at s' r false.
Proof.
  intros G Ha Hb Hn HP Hx Hy. pose proof (wide_bits n HP) as HN.
  assert (Cx : canon x) by apply Ha. assert (Cy : canon y) by apply Hb.
  destruct (hwp_run (less_than a b n) s (fun rho r => is_bool rho r false) G) as (r & s' & Hr & Hg & _ & HQ').
  { intros rho Hag one. pose proof (an_at_is _ _ _ _ Ha Hag one) as Ia. pose proof (an_at_is _ _ _ _ Hb Hag one) as Ib.
    eapply hwp_mono; [apply (less_than_hwp rho one a b n _ _ _ Ia Ib (zero_shift_high n Hn) HN)|].
    cbv beta. intros r. rewrite <- (fmk_id x Cx), <- (fmk_id y Cy). destruct Cx, Cy. rewrite wide_false; auto. lia. }
  exists r, s'. split; auto. split; auto. apply is_boolean_at. exact HQ'.
Qed.
Lemma top_leq_high a b x y n s : good s -> an_at s a x -> an_at s b y ->
  (127 <= n <= 252)%nat -> 2 ^ (Z.of_nat n + 3) < modulus -> x < 2 ^ (Z.of_nat n + 1) -> y < 2 ^ (Z.of_nat n + 1) ->
  exists r s', run true (leq a b n) s = (Ok r, s') /\ good s' /\ boolean_at s' r false.
Proof.
  intros G Ha Hb Hn HP Hx Hy. pose proof (wide_bits n HP) as HN.
  assert (Cx : canon x) by apply Ha. assert (Cy : canon y) by apply Hb.
  destruct (hwp_run (leq a b n) s (fun rho r => is_bool rho r false) G) as (r & s' & Hr & Hg & _ & HQ').
  { intros rho Hag one. pose proof (an_at_is _ _ _ _ Ha Hag one) as Ia. pose proof (an_at_is _ _ _ _ Hb Hag one) as Ib.
    eapply hwp_mono; [apply (leq_hwp rho one a b n _ _ _ Ia Ib (zero_shift_high n Hn) HN)|].
    cbv beta. intros r. replace (fadd y fone) with (fmk (y + 1)).
    - rewrite <- (fmk_id x Cx). destruct Cx, Cy. rewrite wide_false; auto; lia.
    - unfold fadd. apply eqp_eq. now rewrite fone_1. }
  exists r, s'. split; auto. split; auto. apply is_boolean_at. exact HQ'.
Qed.

(** A width at or above the bit length of the field panics. *)
Lemma sum_low_bits_none v : forall l e u, In NUM_BITS l -> Forall (fun i => (i <= NUM_BITS)%nat) l -> canon v ->
  sum_low_bits (Some v) l e u = Err AssignmentMissing.
Proof.
  induction l as [|i l IH]; intros e u Hi Hl Hv; [destruct Hi|]. cbn [sum_low_bits grab rbind]. inversion Hl; subst.
  pose proof wf_bits. destruct (Nat.eq_dec i NUM_BITS) as [->|Hne].
  - rewrite get_bit_out by lia. reflexivity.
  - rewrite get_bit_in by (auto; lia). cbn [rbind grab]. apply IH; auto. destruct Hi; congruence.
Qed.
Lemma sum_low_bits_app v l1 : forall l2 e u r, sum_low_bits (Some v) l1 e u = Err r -> sum_low_bits (Some v) (l1 ++ l2) e u = Err r.
Proof.
  induction l1 as [|i l1 IH]; intros l2 e u r H; cbn [app sum_low_bits grab rbind] in *; [discriminate|].
  destruct (get_bit v i) as [ob| |]; cbn [rbind] in *; auto. destruct (grab ob); cbn [rbind] in *; auto.
Qed.
Lemma low_bits_missing v n : canon v -> (NUM_BITS <= n)%nat -> low_bits (Some v) n = Err AssignmentMissing.
Proof.
  intros Hv Hn. unfold low_bits. replace (S n) with (S NUM_BITS + (n - NUM_BITS))%nat by lia. rewrite seq_app.
  apply sum_low_bits_app, sum_low_bits_none; auto.
  - apply in_seq. lia.
  - apply Forall_forall. intros i Hi. apply in_seq in Hi. lia.
Qed.
Lemma top_less_than_panics a b x y n s : good s -> an_at s a x -> an_at s b y -> (NUM_BITS <= n)%nat ->
  fst (run true (less_than a b n) s) = Panic /\ fst (run true (leq a b n) s) = Panic.
Proof.
  intros G (Va & _) (Vb & _) Hn. split; apply (owp_result _ s (fun r => r = Panic) G); intros rho _ _; unfold less_than, leq; rewrite Va, Vb;
    cbn [unwrap rbind]; destruct (zero_shift n) as [S0|e|]; cbn [rbind].
  all: cbn -[low_bits fsub fadd fone]; auto.
  all: intros z _; rewrite low_bits_missing; auto using fsub_canon; try exact eq_refl.
Qed.

(** ** The comparisons are not enforced *)
Lemma md_any wit : md_of wit <> Honest.
Proof. destruct wit; discriminate. Qed.
Lemma top_less_than_free wit a b n s r s' rho0 x : good_for rho0 s -> run wit (less_than a b n) s = (Ok r, s') ->
  exists rho, same_on s rho rho0 /\ sat rho s' /\ feval rho (bool_lc r 1) = Z.b2z x.
Proof.
  intros G Hr. destruct (awp_run wit (less_than a b n) s rho0 (cmp_aux x) (fun rho r => wire_bool rho r x) r s' G) as (rho & H1 & H2 & H3); auto.
  { intros rho _ one. apply less_than_awp; auto using md_any. }
  exists rho. split; auto. split; [apply H2, same_on_refl|]. apply wire_bool_feval, H3, same_on_refl.
Qed.
Lemma top_leq_free wit a b n s r s' rho0 x : good_for rho0 s -> run wit (leq a b n) s = (Ok r, s') ->
  exists rho, same_on s rho rho0 /\ sat rho s' /\ feval rho (bool_lc r 1) = Z.b2z x.
Proof.
  intros G Hr. destruct (awp_run wit (leq a b n) s rho0 (cmp_aux x) (fun rho r => wire_bool rho r x) r s' G) as (rho & H1 & H2 & H3); auto.
  { intros rho _ one. apply leq_awp; auto using md_any. }
  exists rho. split; auto. split; [apply H2, same_on_refl|]. apply wire_bool_feval, H3, same_on_refl.
Qed.

(** ** The median check *)
Lemma top_median_formula ts m s : good s -> 2 ^ 34 < modulus -> 0 <= m < 2 ^ 32 -> Forall (fun t => 0 <= t < 2 ^ 32) ts ->
  Z.of_nat (List.length ts) < 2 ^ 32 ->
  let L := Z.of_nat (List.length (filter (fun t => (t <? m)%Z) ts)) in
  let G := Z.of_nat (List.length (filter (fun t => (m <? t)%Z) ts)) in
  let Q := Z.of_nat (List.length (filter (fun t => (t =? m)%Z) ts)) in
  exists r s', run true (verify_median_timestamp ts m) s = (Ok r, s') /\ good s' /\
    boolean_at s' r ((if L - G <? 12 then G - L else L - G) + 1 <=? Q).
Proof.
  intros Hg HP Rm Rt HL L G Q. rewrite median_prefix_run.
  destruct (hwp_run (bind (median_prefix ts m) (fun r => ns (Nm "median leq"%string) (leq (fst r) (snd r) 32))) s
     (fun rho r => is_bool rho r (median_lhs m ts <=? same m ts)) Hg) as (r & s' & Hr & Hg' & _ & HQ').
  { intros rho Hag one. hstep. eapply hwp_mono; [apply (median_prefix_hwp rho one ts m); auto|]. cbv beta. intros [l o] [H1 H2].
    hstep. cbn [fst snd] in *. apply (leq_int rho one _ _ 32 _ _ H1 H2); [lia| |].
    - apply num_bits_above. change (Z.of_nat 32) with 32. lia.
    - pose proof (count_split m ts). unfold median_lhs, same, below, above. destruct (_ <? 12); lia. }
  exists r, s'. split; auto. split; auto. apply is_boolean_at. intros rho Hrho. pose proof (HQ' rho Hrho) as H. cbv beta in H.
  replace ((if L - G <? 12 then G - L else L - G) + 1) with (median_lhs m ts); auto.
  unfold median_lhs, below, above, count. fold L G. destruct (L - G <? 12); ring.
Qed.
Lemma top_median_short ts m s : good s -> 2 ^ 34 < modulus -> 0 <= m < 2 ^ 32 -> Forall (fun t => 0 <= t < 2 ^ 32) ts ->
  (List.length ts <= 11)%nat ->
  exists r s', run true (verify_median_timestamp ts m) s = (Ok r, s') /\ good s' /\
    boolean_at s' r (2 * List.length (filter (fun t => (m <? t)%Z)%Z ts) <? List.length ts)%nat.
Proof.
  intros Hg HP Rm Rt HL. destruct (top_median_formula ts m s Hg HP Rm Rt ltac:(lia)) as (r & s' & Hr & Hg' & Hb).
  exists r, s'. split; auto. split; auto. pose proof (count_split m ts) as CS. unfold count in CS.
  set (L := List.length (filter (fun t => (t <? m)%Z) ts)) in *. set (G := List.length (filter (fun t => (m <? t)%Z) ts)) in *. set (Q := List.length (filter (fun t => (t =? m)%Z) ts)) in *.
  replace (2 * G <? List.length ts)%nat with ((if Z.of_nat L - Z.of_nat G <? 12 then Z.of_nat G - Z.of_nat L else Z.of_nat L - Z.of_nat G) + 1 <=? Z.of_nat Q); auto.
  rewrite (proj2 (Z.ltb_lt _ _)) by lia. lia.
Qed.
Lemma top_median_accepts ts m l s : good s -> 2 ^ 34 < modulus -> Forall (fun t => 0 <= t < 2 ^ 32) ts ->
  (List.length ts <= 23)%nat -> compute_median_timestamp ts = Ok (m, l) ->
  exists r s', run true (verify_median_timestamp ts m) s = (Ok r, s') /\ good s' /\ boolean_at s' r true.
Proof.
  intros Hg HP Rt HL Hc.
  assert (Hne : ts <> []) by (intros ->; discriminate).
  destruct (top_median_ok ts Hne) as (m0 & l0 & Hc0 & _ & _ & _ & Hin & H1 & H2). rewrite Hc in Hc0. injection Hc0 as <- <-.
  assert (Rm : 0 <= m < 2 ^ 32) by (rewrite Forall_forall in Rt; auto).
  destruct (top_median_formula ts m s Hg HP Rm Rt ltac:(lia)) as (r & s' & Hr & Hg' & Hb).
  exists r, s'. split; auto. split; auto. pose proof (count_split m ts) as CS. unfold count in CS.
  set (L := List.length (filter (fun t => (t <? m)%Z) ts)) in *. set (G := List.length (filter (fun t => (m <? t)%Z) ts)) in *. set (Q := List.length (filter (fun t => (t =? m)%Z) ts)) in *.
  replace true with ((if Z.of_nat L - Z.of_nat G <? 12 then Z.of_nat G - Z.of_nat L else Z.of_nat L - Z.of_nat G) + 1 <=? Z.of_nat Q); auto.
  pose proof (Nat.div_mod (List.length ts) 2 ltac:(lia)). pose proof (Nat.div_mod (List.length ts + 1) 2 ltac:(lia)).
  pose proof (Nat.mod_upper_bound (List.length ts) 2 ltac:(lia)). pose proof (Nat.mod_upper_bound (List.length ts + 1) 2 ltac:(lia)).
  destruct (Z.ltb_spec (Z.of_nat L - Z.of_nat G) 12); lia.
Qed.

Lemma top_median_larger ts m s : good s -> 2 ^ 34 < modulus -> m < 2 ^ 32 -> Forall (fun t => 0 <= t <= m) ts ->
  (1 <= List.length ts <= 11)%nat ->
  exists r s', run true (verify_median_timestamp ts m) s = (Ok r, s') /\ good s' /\ boolean_at s' r true.
Proof.
  intros Hg HP Rm Rt HL.
  assert (Rm' : 0 <= m) by (destruct ts as [|t ts]; [cbn in HL; lia|inversion Rt; lia]).
  destruct (top_median_short ts m s Hg HP ltac:(lia)) as (r & s' & Hr & Hg' & Hb); [|lia|].
  { eapply Forall_impl; [|exact Rt]. cbv beta. lia. }
  exists r, s'. split; auto. split; auto.
  fold (count (fun t => (m <? t)%Z) ts) in Hb. rewrite count_none in Hb.
  - rewrite (proj2 (Nat.ltb_lt _ _)) in Hb by lia. exact Hb.
  - eapply Forall_impl; [|exact Rt]. cbv beta. lia.
Qed.
Lemma top_median_24_refuted s : good s -> 2 ^ 34 < modulus ->
  exists ts m l r s', List.length ts = 24%nat /\ Forall (fun t => 0 <= t < 2 ^ 32) ts /\
    compute_median_timestamp ts = Ok (m, l) /\
    run true (verify_median_timestamp ts m) s = (Ok r, s') /\ good s' /\ boolean_at s' r false.
Proof.
  intros Hg HP. set (ts := repeat 1 12 ++ repeat 2 12).
  assert (Rt : Forall (fun t => 0 <= t < 2 ^ 32) ts) by (repeat (constructor; [lia|]); constructor).
  destruct (top_median_formula ts 2 s Hg HP ltac:(lia) Rt eq_refl) as (r & s' & Hr & Hg' & Hb).
  exists ts, 2, ts, r, s'. split; [reflexivity|]. split; [exact Rt|]. split; [vm_compute; reflexivity|]. split; [exact Hr|]. split; [exact Hg'|].
  cbv zeta in Hb. match type of Hb with boolean_at _ _ ?b => assert (HB : b = false) by (vm_compute; reflexivity); rewrite HB in Hb end. exact Hb.
Qed.

Lemma leq_takes a b n : takes (leq a b n) 6 (fun _ => True).
Proof. cbn. intros. auto. Qed.

Lemma top_median_free ts m s x : good s -> 2 ^ 34 < modulus -> 0 <= m < 2 ^ 32 -> Forall (fun t => 0 <= t < 2 ^ 32) ts ->
  Z.of_nat (List.length ts) < 2 ^ 32 ->
  exists r s' rho, run true (verify_median_timestamp ts m) s = (Ok r, s') /\ sat rho s' /\
    feval rho (bool_lc r 1) = Z.b2z x /\
    (forall k, (k < List.length (st_in s'))%nat -> rho (VIn k) = asg s' (VIn k)) /\
    (forall k, (k < List.length (st_aux s') - 6)%nat -> rho (VAux k) = asg s' (VAux k)).
Proof.
  intros Hg HP Rm Rt HL. destruct (top_median_formula ts m s Hg HP Rm Rt HL) as (r & s' & Hr & Hg' & _).
  exists r, s'. pose proof Hr as Hr'. rewrite median_prefix_run, run_bind in Hr'.
  destruct (hwp_run (median_prefix ts m) s (fun _ _ => True) Hg) as ([l o] & s1 & Hr1 & Hg1 & _ & _).
  { intros rho Hag one. eapply hwp_mono; [apply (median_prefix_hwp rho one ts m); auto|]. auto. }
  rewrite Hr1 in Hr'. set (m2 := ns (Nm "median leq"%string) (leq (fst (l, o)) (snd (l, o)) 32)) in *.
  destruct (awp_run true m2 s1 (asg s1) (cmp_aux x) (fun rho r => wire_bool rho r x) r s' (good_good_for _ Hg1)) as (rho & H1 & H2 & H3); auto.
  { intros rho _ one. unfold m2. astep. apply leq_awp; auto. discriminate. }
  exists rho. split; auto. split; [apply H2, same_on_refl|]. split; [apply wire_bool_feval, H3, same_on_refl|].
  destruct (takes_run true m2 6 (fun _ => True) s1 r s' (takes_ns _ _ _ _ (leq_takes _ _ _)) Hr') as [HC _].
  assert (HI : st_in s' = st_in s1) by (eapply aux_only_run; [|exact Hr']; cbn; repeat split; auto).
  pose proof (run_same _ _ _ _ _ Hr') as HA. unfold n_vars in HC. rewrite HI in HC.
  destruct (same_on_trans _ _ _ _ H1 HA) as [A1 A2]. rewrite HI. split; intros k Hk; [apply A1|apply A2]; lia.
Qed.

(** Without witnesses the check panics as soon as there is one timestamp. *)
Lemma equals_shp a b : an_val a = None -> shp (equals a b) (fun r => exists c, r = Ok c /\ bool_val c = None).
Proof. intros H. unfold equals. rewrite H. cbn -[fsub fmul finvert lc_sub lc_add]. intros. eexists. split; reflexivity. Qed.
Lemma shp_step {A B} nm (m : prog A) (f : A -> prog B) (P : A -> Prop) Q :
  shp m (fun r => exists a, r = Ok a /\ P a) -> (forall a, P a -> shp (f a) Q) -> shp (bind (unwrap_prog (ns nm m)) f) Q.
Proof.
  intros H1 H2. apply shp_bind, shp_unwrap, shp_ns. eapply shp_mono; [exact H1|]. intros r (a & -> & Ha). cbv beta iota. auto.
Qed.
Lemma shp_step' {A B} nm (m : prog A) (f : A -> prog B) Q :
  shp m (fun r => exists a, r = Ok a) -> (forall a, shp (f a) Q) -> shp (bind (unwrap_prog (ns nm m)) f) Q.
Proof. intros H1 H2. apply shp_step with (P := fun _ => True); auto. eapply shp_mono; [exact H1|]. intros r (a & ->). eauto. Qed.
Lemma an_alloc_shp w : shp (an_alloc w) (fun r => exists a, r = Ok a /\ an_val a = None).
Proof. cbn. intros. eexists. split; reflexivity. Qed.
Lemma cmp_shp (w1 : res Z) (w2 : option Z -> res Z) nm1 nm2 nm3 :
  shp (let! z := unwrap_prog (ns nm1 (an_alloc w1)) in
       let! nb := unwrap_prog (ns nm2 (an_alloc (w2 (an_val z)))) in ns nm3 (equals z nb))
    (fun r => exists c, r = Ok c).
Proof.
  eapply shp_step; [apply an_alloc_shp|]. intros z Hz. eapply shp_step; [apply an_alloc_shp|]. intros nb _. apply (shp_ns nm3).
  eapply shp_mono; [apply equals_shp; exact Hz|]. cbv beta. intros r (c & H & _). eauto.
Qed.
Lemma less_than_shp a b n : shp (less_than a b n) (fun r => exists c, r = Ok c).
Proof. unfold less_than. apply (cmp_shp _ (fun v => low_bits v n)). Qed.
Lemma leq_shp a b n : shp (leq a b n) (fun r => exists c, r = Ok c).
Proof. unfold leq. apply (cmp_shp _ (fun v => low_bits v n)). Qed.
Lemma top_median_shape ts m s : (fst (run false (verify_median_timestamp ts m) s) = Panic) <-> ts <> [].
Proof.
  split.
  - intros H ->. revert H. apply (shp_run _ s (fun r => r = Panic -> False)). unfold verify_median_timestamp.
    eapply shp_step; [apply an_alloc_shp|]. intros fm Hm. cbn [List.length seq combine mapM bind].
    eapply shp_step; [apply an_alloc_shp|]. intros sd Hsd. cbn [List.length seq combine foldM bind].
    eapply shp_step; [apply an_alloc_shp|]. intros c12 _. apply shp_step'; [apply less_than_shp|]. intros pos.
    eapply shp_step; [apply an_alloc_shp|]. intros neg _. apply shp_bind. cbn [enforce shp].
    apply shp_step'; [cbn; intros; eauto|]. intros [ab ab'].
    eapply shp_step; [apply an_alloc_shp|]. intros c1 _. apply shp_step'; [cbn; intros; eauto|]. intros lhs.
    eapply shp_step; [apply an_alloc_shp|]. intros occ _. apply shp_ns. eapply shp_mono; [apply leq_shp|].
    intros r (c & ->). discriminate.
  - intros Hne. apply (shp_run _ s (fun r => r = Panic)). unfold verify_median_timestamp.
    eapply shp_step; [apply an_alloc_shp|]. intros fm Hm. apply shp_bind.
    apply (shp_mapM _ (fun _ a => an_val a = None)). { intros q _. cbn -[from_u64]. auto. }
    intros fts Hf. eapply shp_step; [apply an_alloc_shp|]. intros x0 _. apply shp_bind.
    destruct ts as [|t ts]; [congruence|]. cbn [List.length seq combine] in Hf. inversion Hf as [|? a ? fts' Ha _]; subst.
    cbn [List.length seq combine foldM]. apply shp_bind. unfold median_step at 1.
    eapply shp_step; [apply equals_shp; exact Hm|]. intros eqb Heq. cbv zeta.
    apply shp_step'; [apply less_than_shp|]. intros ltb.
    eapply shp_step; [apply an_alloc_shp|]. intros ds _. rewrite Heq. reflexivity.
Qed.

End Top.
