(** src/util/bit.rs and src/util/num.rs. *)
From Coq Require Import ZArith Bool List Lia Setoid Morphisms ZifyBool ZifyNat.
From Verif.Model Require Import Base CS Bellpepper Util.
From Verif.Spec Require Import Spec.
From Verif.Proofs Require Import Field Arith Convert Wp Lc.
Import ListNotations.
Local Open Scope Z_scope.

Section BitNum.
Context {E : Env} {W : Wf E}.

(** Wires that carry bits. *)
Definition wire_bit (rho : assignment) (l : LC) (b : bool) : Prop := eqp (lc_eval rho l) (Z.b2z b).

Lemma f_of_bool_b2z b : f_of_bool b = Z.b2z b.
Proof. destruct b; simpl; [apply fone_1|reflexivity]. Qed.
Lemma b2z_canon b : canon (Z.b2z b).
Proof. destruct b; [apply canon_1|apply canon_0]. Qed.

Lemma b2z_eqp_inj a b : eqp (Z.b2z a) (Z.b2z b) -> a = b.
Proof.
  intros H. apply canon_eqp in H; auto using b2z_canon. destruct a, b; simpl in H; congruence.
Qed.
Lemma bit_cases x : eqp x 0 \/ eqp x 1 -> exists b, eqp x (Z.b2z b).
Proof. intros [H|H]; [exists false|exists true]; exact H. Qed.

Lemma bool_con rho x : rho ONE = 1 ->
  eqp (lc_eval rho (lc_sub (lc_var ONE) (lc_var x)) * lc_eval rho (lc_var x)) (lc_eval rho lc_zero) <->
  exists b, eqp (rho x) (Z.b2z b).
Proof.
  intros H1. lcs. rewrite H1. replace ((1 - rho x) * rho x) with (rho x * (1 - rho x)) by ring.
  rewrite bool_sol. split; [apply bit_cases|].
  intros [[] H]; [right|left]; exact H.
Qed.
Lemma bool_con' rho x : rho ONE = 1 ->
  eqp (lc_eval rho (lc_var x) * lc_eval rho (lc_sub (lc_var ONE) (lc_var x))) (lc_eval rho lc_zero) <->
  exists b, eqp (rho x) (Z.b2z b).
Proof. intros H1. rewrite Z.mul_comm. now apply bool_con. Qed.

Definition width1 (n : nat) : nat := S (n - 1).

Lemma width1_pos n : (1 <= n)%nat -> width1 n = n.
Proof. unfold width1; lia. Qed.

Lemma bit_scalar_ok v i : canon v -> (i < NUM_BITS)%nat ->
  bit_scalar (Some v) i = Ok (Z.b2z (Z.testbit v (Z.of_nat i))).
Proof.
  intros Hv Hi. unfold bit_scalar. cbn [grab rbind].
  rewrite get_bit_in; auto; [|pose proof wf_bits; lia].
  cbn [grab rbind]. now rewrite f_of_bool_b2z.
Qed.

Lemma testbits_shift v k : 0 <= v < 2 ^ Z.of_nat (width1 k) ->
  v = Z.b2z (Z.testbit v 0) +
      2 * bits_value (map (fun i => Z.testbit v (Z.of_nat i)) (seq 1 (k - 1))).
Proof.
  intros Hv. pose proof (testbits_value_0 v (width1 k) ltac:(lia)) as T.
  rewrite Z.mod_small in T by lia. unfold width1 in T. cbn [seq map] in T.
  unfold bits_value in *. cbn [map value_of] in T. symmetry. exact T.
Qed.

Definition fits_aux (v : Z) (k : nat) : list Z :=
  map (fun i => Z.b2z (Z.testbit v (Z.of_nat i))) (seq 1 (k - 1)).

Lemma get_bits_ok v k : canon v -> (k <= NUM_BITS)%nat ->
  rmapM (fun i => let? ob := get_bit v i in unwrap ob) (seq 0 k) =
  Ok (map (fun i => Z.testbit v (Z.of_nat i)) (seq 0 k)).
Proof.
  intros Hv Hk. assert (G : forall l, (forall i, In i l -> (i < NUM_BITS)%nat) ->
    rmapM (fun i => let? ob := get_bit v i in unwrap ob) l =
    Ok (map (fun i => Z.testbit v (Z.of_nat i)) l)).
  { induction l as [|i l IH]; intros Hl; auto. cbn [rmapM map].
    rewrite get_bit_in; auto; [|pose proof wf_bits; specialize (Hl i (or_introl eq_refl)); lia|apply Hl; now left].
    cbn [rbind unwrap]. rewrite IH by (intros; apply Hl; now right). reflexivity. }
  apply G. intros i Hi. apply in_seq in Hi. lia.
Qed.

Lemma get_bits_panic v k : canon v -> (NUM_BITS < k)%nat ->
  rmapM (fun i => let? ob := get_bit v i in unwrap ob) (seq 0 k) = Panic.
Proof.
  intros Hv Hk. replace k with (NUM_BITS + S (k - NUM_BITS - 1))%nat by lia.
  rewrite seq_app.
  assert (G : forall l1 l2, (forall i, In i l1 -> (i < NUM_BITS)%nat) ->
    rmapM (fun i => let? ob := get_bit v i in unwrap ob) l2 = Panic ->
    rmapM (fun i => let? ob := get_bit v i in unwrap ob) (l1 ++ l2) = Panic).
  { induction l1 as [|i l IH]; intros l2 Hl H2; auto. cbn [app rmapM].
    rewrite get_bit_in; auto; [|pose proof wf_bits; specialize (Hl i (or_introl eq_refl)); lia|apply Hl; now left].
    cbn [rbind unwrap]. rewrite IH; auto. intros; apply Hl; now right. }
  apply G.
  - intros i Hi. apply in_seq in Hi. lia.
  - cbn [seq rmapM]. rewrite get_bit_out; auto; pose proof wf_bits; lia.
Qed.

Lemma num_decompose_panic wit n k v s : n_val n = Some v -> canon v -> (NUM_BITS < k)%nat ->
  run wit (num_decompose n k) s = (Panic, s).
Proof.
  intros Hv Hc Hk. unfold num_decompose. rewrite Hv, get_bits_panic by auto. reflexivity.
Qed.

(** Binary digits determine the bits below the field width. *)
Lemma bits_unique v bs k : (k < NUM_BITS)%nat -> length bs = k -> canon v ->
  eqp v (bits_value bs) -> v = bits_value bs.
Proof.
  intros Hk <- Hc H. apply eqp_small in H; auto.
  pose proof (bits_value_bound bs). pose proof modulus_bits as [M _].
  assert (2 ^ Z.of_nat (length bs) <= 2 ^ Z.of_nat CAPACITY).
  { apply pow2_le. rewrite num_bits_S in Hk. lia. }
  lia.
Qed.

Section Rho.
Context (rho : assignment) (one : rho ONE = 1).

(** ** Bit (C06) *)
Lemma bit_alloc_swp md v : swp md rho (bit_alloc v)
  (fun b => b_val b = v /\ exists x, wire_bit rho (b_lc b) x /\
     (md = Honest -> v = Some x)).
Proof.
  unfold bit_alloc. repeat sstep. intros x o Hm. repeat sstep. intros H.
  apply bool_con in H; auto. destruct H as [b Hb]. simpl. split; auto. exists b. split.
  - red. lcs. exact Hb.
  - intros ->. destruct Hm as (z & Hz & _ & Hy). destruct v as [c|]; [|discriminate].
    simpl in Hz. injection Hz as Hz. f_equal. apply b2z_eqp_inj.
    rewrite <- Hb, Hy, <- Hz, f_of_bool_b2z. reflexivity.
Qed.

Lemma bit_alloc_hwp v : hwp rho (bit_alloc (Some v))
  (fun b => b_val b = Some v /\ wire_bit rho (b_lc b) v).
Proof.
  unfold bit_alloc. repeat hstep; [reflexivity|]. intros x Hx. repeat hstep.
  - apply bool_con; auto. exists v. rewrite Hx, f_of_bool_b2z. reflexivity.
  - simpl. split; auto. red. lcs. rewrite Hx, f_of_bool_b2z. reflexivity.
Qed.

Lemma bit_alloc_awp md v b : (md = Honest -> v = Some b) -> awp md rho (bit_alloc v) [Z.b2z b]
  (fun r => b_val r = v /\ wire_bit rho (b_lc r) b).
Proof.
  intros Hh. unfold bit_alloc. eapply awp_bind_eq with (ys1 := [Z.b2z b]); [reflexivity|].
  astep. { intros ->. rewrite (Hh eq_refl). simpl. now rewrite f_of_bool_b2z. }
  intros x o Hx Hv. apply awp_bind_nil. astep.
  - apply bool_con; auto. exists b. rewrite Hx. reflexivity.
  - astep. simpl. split; auto. red. lcs. rewrite Hx. reflexivity.
Qed.

Lemma bit_constrain_swp md b v : swp md rho (bit_constrain_value b v)
  (fun _ => wire_bit rho (b_lc b) v).
Proof.
  unfold bit_constrain_value. sstep. unfold wire_bit. destruct v; intros H.
  - lcs_in H. rewrite one in H. apply (proj1 (eqp_sub_0 _ _)). exact H.
  - exact H.
Qed.
Lemma bit_constrain_hwp b v : wire_bit rho (b_lc b) v -> hwp rho (bit_constrain_value b v) (fun _ => True).
Proof.
  intros H. unfold bit_constrain_value. hstep; auto. destruct v.
  - lcs. rewrite one. apply (proj2 (eqp_sub_0 _ _)). exact H.
  - exact H.
Qed.

Lemma bit_not_wire b v : wire_bit rho (b_lc b) v -> wire_bit rho (b_lc (bit_not b)) (negb v).
Proof.
  unfold wire_bit, bit_not; simpl. intros H. lcs. rewrite H, one. destruct v; reflexivity.
Qed.

(** ** Allocated bits and weighted sums *)
Definition wire_bits (ls : list LC) (bs : list bool) : Prop := Forall2 (wire_bit rho) ls bs.

Lemma wire_bits_value ls bs : wire_bits ls bs ->
  eqp (value_of 2 (map (lc_eval rho) ls)) (bits_value bs).
Proof.
  intros H. unfold bits_value. apply value_of_eqp.
  induction H; simpl; constructor; auto.
Qed.

Lemma weighted_vars_eval sgn : forall vs f,
  eqp (lc_eval rho (weighted_vars sgn f vs)) (sgn * (2 * f * value_of 2 (map rho vs))).
Proof.
  induction vs as [|v vs IH]; intros f; cbn [weighted_vars map value_of].
  - lcs. ering.
  - rewrite lc_eval_cons. rewrite IH. feq. ering.
Qed.

Lemma weighted_bits_eval : forall bs f,
  eqp (lc_eval rho (weighted_bits f bs)) (f * value_of 2 (map (fun b => lc_eval rho (b_lc b)) bs)).
Proof.
  induction bs as [|b bs IH]; intros f; cbn [weighted_bits map value_of].
  - lcs. ering.
  - lcs. rewrite IH. feq. ering.
Qed.

(** ** fits_in_bits (C07, C08) *)
Lemma fits_in_bits_swp md n k : swp md rho (fits_in_bits n k)
  (fun _ => exists bs, length bs = width1 k /\ eqp (lc_eval rho (n_lc n)) (bits_value bs)).
Proof.
  unfold fits_in_bits. repeat sstep.
  apply (swp_mapM _ _ _ (fun _ _ => True)).
  { intros i _. sstep. sstep. intros x v _. sstep. exact I. }
  intros xs Hxs. apply Forall2_length in Hxs. rewrite seq_length in Hxs.
  sstep. apply (swp_iterM _ _ _ (fun p => exists b, eqp (rho (snd p)) (Z.b2z b))).
  { intros p _. sstep. intros H. apply bool_con' in H; auto. }
  intros Hb. sstep. intros H.
  assert (Hbs : exists bs, length bs = length xs /\ eqp (value_of 2 (map rho xs)) (bits_value bs)).
  { assert (G : forall x, In x xs -> exists b, eqp (rho x) (Z.b2z b)).
    { intros x Hx. apply In_nth_error in Hx. destruct Hx as [i Hi].
      apply (Hb (i, x)). assert (Hl : (i < length xs)%nat) by (apply nth_error_Some; congruence).
      apply (nth_error_In _ i). clear Hb H Hxs.
      rewrite (combine_seq_nth x _ _ 0%nat Hi). reflexivity. }
    clear Hb H Hxs. induction xs as [|x xs IH].
    - exists []. split; reflexivity.
    - destruct IH as (bs & Hl & He); [intros; apply G; now right|].
      destruct (G x (or_introl eq_refl)) as [b Hb].
      exists (b :: bs). split; [simpl; congruence|].
      unfold bits_value. cbn [map value_of]. now rewrite Hb, He. }
  destruct Hbs as (bs & Hl & He).
  lcs_in H. rewrite !weighted_vars_eval in H. rewrite fone_1, one, He in H.
  set (L := lc_eval rho (n_lc n)) in *. set (V := bits_value bs) in *.
  replace ((L + -1 * (2 * 1 * V)) * (1 - L + 1 * (2 * 1 * V)))
    with ((L - 2 * V) * (1 - (L - 2 * V))) in H by ring.
  apply bool_sol, bit_cases in H. destruct H as [b Hbb].
  exists (b :: bs). split.
  - simpl. unfold width1. congruence.
  - unfold bits_value. cbn [map value_of]. fold (bits_value bs). fold V.
    rewrite <- Hbb. ering.
Qed.

Lemma bits_feval l bs k : length bs = k -> eqp (lc_eval rho l) (bits_value bs) ->
  0 <= feval rho l < 2 ^ Z.of_nat k.
Proof.
  intros <- H. pose proof (bits_value_bound bs) as B. pose proof (fmk_range (lc_eval rho l)) as R.
  unfold feval. rewrite (proj1 (eqp_eq _ _) H). split; [apply fmk_range|].
  pose proof mod_pos. unfold fmk. pose proof (Z.mod_le (bits_value bs) modulus). lia.
Qed.

(** The honest value of a number. *)
Definition is_num (n : num) (v : Z) : Prop :=
  n_val n = Some v /\ canon v /\ eqp (lc_eval rho (n_lc n)) v.

Lemma last_bit_con n v xs k : eqp (lc_eval rho (n_lc n)) v -> 0 <= v < 2 ^ Z.of_nat (width1 k) ->
  map rho xs = map (fun i => Z.b2z (Z.testbit v (Z.of_nat i))) (seq 1 (k - 1)) ->
  eqp (lc_eval rho (lc_add (n_lc n) (weighted_vars (-1) fone xs)) *
       lc_eval rho (lc_add (lc_sub (lc_var ONE) (n_lc n)) (weighted_vars 1 fone xs)))
      (lc_eval rho lc_zero).
Proof.
  intros Hn Hv Hxs. lcs. rewrite !weighted_vars_eval, fone_1, one, Hn, Hxs.
  rewrite <- (map_map (fun i => Z.testbit v (Z.of_nat i)) Z.b2z).
  fold (bits_value (map (fun i => Z.testbit v (Z.of_nat i)) (seq 1 (k - 1)))).
  pose proof (testbits_shift v k Hv) as T. set (V := bits_value _) in *.
  set (b0 := Z.testbit v 0) in *. rewrite T.
  destruct b0; cbn [Z.b2z]; ering.
Qed.

Lemma fits_in_bits_hwp n k v : is_num n v -> (k <= NUM_BITS)%nat -> v < 2 ^ Z.of_nat (width1 k) ->
  hwp rho (fits_in_bits n k) (fun _ => True).
Proof.
  intros (Hval & Hc & Hn) Hk Hv. unfold fits_in_bits. hstep.
  apply (hwp_mapM _ _ (fun i x => rho x = Z.b2z (Z.testbit v (Z.of_nat i)))).
  { intros i Hi. apply in_seq in Hi. hstep. hstep.
    - rewrite Hval. apply bit_scalar_ok; auto. lia.
    - intros x Hx. hstep. exact Hx. }
  intros xs Hxs.
  assert (Hm : map rho xs = map (fun i => Z.b2z (Z.testbit v (Z.of_nat i))) (seq 1 (k - 1))).
  { clear -Hxs. induction Hxs; simpl; congruence. }
  hstep. apply hwp_iterM.
  { intros [i x] Hp. apply in_combine_r in Hp. hstep; auto. apply bool_con'; auto. simpl.
    assert (Hr : In (rho x) (map rho xs)) by now apply in_map.
    rewrite Hm in Hr. apply in_map_iff in Hr. destruct Hr as (j & Hj & _).
    rewrite <- Hj. eexists; reflexivity. }
  hstep; auto. eapply last_bit_con; eauto. destruct Hc; lia.
Qed.

Lemma fits_in_bits_awp md n k v : eqp (lc_eval rho (n_lc n)) v -> 0 <= v < 2 ^ Z.of_nat (width1 k) ->
  (md = Honest -> n_val n = Some v /\ canon v /\ (k <= NUM_BITS)%nat) ->
  awp md rho (fits_in_bits n k) (fits_aux v k) (fun _ => True).
Proof.
  intros Hn Hv Hh. unfold fits_in_bits.
  replace (fits_aux v k) with (flat_map (fun i => [Z.b2z (Z.testbit v (Z.of_nat i))]) (seq 1 (k - 1)) ++ []).
  2:{ rewrite app_nil_r. unfold fits_aux. now rewrite flat_map_concat_map, <- (map_map _ (fun x => [x])), <- flat_map_concat_map, flat_map_concat_map, map_map, <- flat_map_concat_map; induction (seq 1 (k - 1)); simpl; f_equal; auto. }
  apply awp_bind.
  apply (awp_mapM _ _ _ _ (fun i x => rho x = Z.b2z (Z.testbit v (Z.of_nat i)))).
  { intros i Hi. eapply awp_bind_eq with (ys2 := []); [now rewrite app_nil_r|].
    astep. { intros Hm. destruct (Hh Hm) as (-> & Hc & Hk). apply in_seq in Hi.
      apply bit_scalar_ok; auto. lia. }
    intros x o Hx _. astep. exact Hx. }
  intros xs Hxs.
  assert (Hm : map rho xs = map (fun i => Z.b2z (Z.testbit v (Z.of_nat i))) (seq 1 (k - 1))).
  { clear -Hxs. induction Hxs; simpl; congruence. }
  eapply awp_bind_eq with (ys1 := flat_map (fun _ => []) (combine (seq 0 (length xs)) xs)).
  { rewrite app_nil_r. induction (combine _ _); simpl; auto. }
  apply awp_iterM.
  { intros [i x] Hp. apply in_combine_r in Hp. astep; auto. apply bool_con'; auto. simpl.
    assert (Hr : In (rho x) (map rho xs)) by now apply in_map.
    rewrite Hm in Hr. apply in_map_iff in Hr. destruct Hr as (j & Hj & _).
    rewrite <- Hj. eexists; reflexivity. }
  astep; auto. eapply last_bit_con; eauto.
Qed.

(** ** decompose (C09) *)
Definition wire_allocs (bv : bitvector) (bs : list bool) : Prop :=
  bv_bits bv = map b_lc (bv_allocs bv) /\ wire_bits (bv_bits bv) bs.

Lemma sum_con n bs vs : wire_bits (map b_lc bs) vs ->
  (eqp (lc_eval rho (lc_sub (n_lc n) (weighted_bits fone bs)) * lc_eval rho (lc_var ONE))
       (lc_eval rho lc_zero) <->
   eqp (lc_eval rho (n_lc n)) (bits_value vs)).
Proof.
  intros H. lcs. rewrite weighted_bits_eval, fone_1, one.
  apply wire_bits_value in H. rewrite map_map in H. rewrite H.
  set (L := lc_eval rho (n_lc n)). set (V := bits_value vs).
  replace ((L - 1 * V) * 1) with (L - V) by ring. apply eqp_sub_0.
Qed.

Lemma num_decompose_swp md n k : swp md rho (num_decompose n k)
  (fun bv => exists bs, length bs = k /\ wire_allocs bv bs /\
     eqp (lc_eval rho (n_lc n)) (bits_value bs) /\
     (match bv_vals bv with
      | Some vs => length vs = k /\ (md = Honest -> vs = bs)
      | None => n_val n = None end)).
Proof.
  unfold num_decompose. do 2 sstep. intros values Hvals. sstep.
  apply (swp_mapM _ _ _ (fun i b => exists x, wire_bit rho (b_lc b) x /\
     (md = Honest -> match values with None => None | Some vs => nth_error vs i end = Some x))).
  { intros i _. sstep. eapply swp_mono; [apply bit_alloc_swp|]. intros b (_ & x & H1 & H2).
    exists x. split; auto. }
  intros bits Hbits.
  assert (G : exists bs, length bs = k /\ wire_bits (map b_lc bits) bs /\
     (md = Honest -> forall i, (i < k)%nat ->
        match values with None => None | Some vs => nth_error vs i end = nth_error bs i)).
  { assert (T : forall l o, Forall2 (fun i b => exists x, wire_bit rho (b_lc b) x /\
     (md = Honest -> match values with None => None | Some vs => nth_error vs i end = Some x))
       (seq o k) l -> exists bs, length bs = k /\ wire_bits (map b_lc l) bs /\
     (md = Honest -> forall i, (i < k)%nat ->
        match values with None => None | Some vs => nth_error vs (o + i)%nat end = nth_error bs i)).
    { clear. induction k; intros l o H; inversion H; subst.
      - exists []. repeat split; auto; [constructor|lia].
      - apply IHk in H4. destruct H4 as (bs & H5 & H6 & H7). destruct H2 as (x & Hx & Hx').
        exists (x :: bs). split; [simpl; auto|]. split; [constructor; auto|].
        intros Hm i Hi. destruct i as [|i].
        + rewrite Nat.add_0_r. simpl. auto.
        + simpl. rewrite <- H7 by (auto; lia). rewrite Nat.add_succ_r. reflexivity. }
    apply (T bits 0%nat). exact Hbits. }
  destruct G as (bs & Hl & Hw & Hh).
  repeat sstep. intros H. apply (sum_con n bits bs Hw) in H.
  exists bs. split; auto. split; [split; simpl; auto|]. split; auto. simpl.
  destruct (n_val n) as [v|] eqn:Ev.
  - destruct (rmapM _ _) as [vs| |] eqn:Er; try discriminate. injection Hvals as <-.
    assert (Hlv : length vs = k).
    { apply rmapM_length in Er. now rewrite seq_length in Er. }
    split; auto. intros Hm. specialize (Hh Hm).
    assert (Hll : length vs = length bs) by congruence.
    rewrite <- Hl in Hh. clear - Hh Hll. revert bs Hll Hh.
    induction vs as [|a vs IH]; intros [|b bs] Hl Hh; try discriminate; auto.
    simpl in Hl. injection Hl as Hl. f_equal.
    + specialize (Hh 0%nat). simpl in Hh. assert (Some a = Some b) by (apply Hh; lia). congruence.
    + apply IH; auto. intros i Hi. apply (Hh (S i)). simpl; lia.
  - injection Hvals as <-. auto.
Qed.

Lemma num_decompose_hwp n k v : is_num n v -> (k <= NUM_BITS)%nat -> v < 2 ^ Z.of_nat k ->
  hwp rho (num_decompose n k) (fun bv =>
    bv_vals bv = Some (map (fun i => Z.testbit v (Z.of_nat i)) (seq 0 k)) /\
    wire_allocs bv (map (fun i => Z.testbit v (Z.of_nat i)) (seq 0 k))).
Proof.
  intros (Hval & Hc & Hn) Hk Hv. unfold num_decompose. rewrite Hval.
  do 2 hstep. { rewrite get_bits_ok by auto. reflexivity. }
  hstep. apply (hwp_mapM _ _ (fun i b => wire_bit rho (b_lc b) (Z.testbit v (Z.of_nat i)))).
  { intros i Hi. apply in_seq in Hi. hstep.
    rewrite nth_error_map, nth_error_nth' with (d := 0%nat) by (rewrite seq_length; lia).
    rewrite seq_nth by lia. cbn [option_map]. eapply hwp_mono; [apply bit_alloc_hwp|].
    simpl. tauto. }
  intros bits Hbits.
  assert (Hw : wire_bits (map b_lc bits) (map (fun i => Z.testbit v (Z.of_nat i)) (seq 0 k))).
  { clear -Hbits. induction Hbits; simpl; constructor; auto. }
  hstep. hstep.
  - apply (sum_con n bits _ Hw). rewrite testbits_value_0, Z.mod_small; auto; destruct Hc; lia.
  - hstep. simpl. split; auto. split; auto.
Qed.

Lemma num_decompose_awp md n k v : eqp (lc_eval rho (n_lc n)) v -> 0 <= v < 2 ^ Z.of_nat k ->
  (k <= NUM_BITS)%nat -> (forall x, n_val n = Some x -> canon x) ->
  (md = Honest -> n_val n = Some v) ->
  awp md rho (num_decompose n k) (map (fun i => Z.b2z (Z.testbit v (Z.of_nat i))) (seq 0 k))
    (fun bv => wire_allocs bv (map (fun i => Z.testbit v (Z.of_nat i)) (seq 0 k)) /\
       (md = Honest -> bv_vals bv = Some (map (fun i => Z.testbit v (Z.of_nat i)) (seq 0 k)))).
Proof.
  intros Hn Hv Hk Hx Hh. unfold num_decompose.
  apply awp_bind_nil.
  assert (Hok : exists values, match n_val n with
     | None => Ok None
     | Some v => let? bs := rmapM (fun i => let? ob := get_bit v i in unwrap ob) (seq 0 k) in Ok (Some bs)
     end = Ok values /\
       (md = Honest -> values = Some (map (fun i => Z.testbit v (Z.of_nat i)) (seq 0 k)))).
  { destruct (n_val n) as [x|] eqn:Ex.
    - rewrite get_bits_ok by auto. eexists; split; [reflexivity|]. intros Hm. specialize (Hh Hm).
      assert (x = v) by congruence. now subst.
    - eexists; split; [reflexivity|]. intros Hm. specialize (Hh Hm). congruence. }
  destruct Hok as (values & Hvalues & Hhv). eapply awp_lift; [exact Hvalues|].
  replace (map (fun i => Z.b2z (Z.testbit v (Z.of_nat i))) (seq 0 k))
    with (flat_map (fun i => [Z.b2z (Z.testbit v (Z.of_nat i))]) (seq 0 k)).
  2:{ induction (seq 0 k); simpl; f_equal; auto. }
  apply awp_bind_all. apply (awp_mapM _ _ _ _ (fun i b => wire_bit rho (b_lc b) (Z.testbit v (Z.of_nat i)))).
  { intros i Hi. apply in_seq in Hi. astep. eapply awp_mono; [apply bit_alloc_awp|simpl; tauto].
    intros Hm. rewrite (Hhv Hm), nth_error_map.
    rewrite nth_error_nth' with (d := 0%nat) by (rewrite seq_length; lia).
    rewrite seq_nth by lia. reflexivity. }
  intros bits Hbits.
  assert (Hw : wire_bits (map b_lc bits) (map (fun i => Z.testbit v (Z.of_nat i)) (seq 0 k))).
  { clear -Hbits. induction Hbits; simpl; constructor; auto. }
  apply awp_bind_nil. astep.
  - apply (sum_con n bits _ Hw). rewrite testbits_value_0, Z.mod_small; auto; lia.
  - astep. split; auto. split; auto.
Qed.

Lemma num_is_equal_swp md n bv bs : wire_bits (map b_lc (bv_allocs bv)) bs ->
  swp md rho (num_is_equal n bv) (fun _ => eqp (lc_eval rho (n_lc n)) (bits_value bs)).
Proof.
  intros H. unfold num_is_equal. sstep. intros G. now apply (sum_con n _ _ H) in G.
Qed.
Lemma num_is_equal_hwp n bv bs : wire_bits (map b_lc (bv_allocs bv)) bs ->
  eqp (lc_eval rho (n_lc n)) (bits_value bs) -> hwp rho (num_is_equal n bv) (fun _ => True).
Proof. intros H G. unfold num_is_equal. hstep; auto. now apply (sum_con n _ _ H). Qed.
Lemma num_is_equal_awp md n bv bs : wire_bits (map b_lc (bv_allocs bv)) bs ->
  eqp (lc_eval rho (n_lc n)) (bits_value bs) -> awp md rho (num_is_equal n bv) [] (fun _ => True).
Proof. intros H G. unfold num_is_equal. astep; auto. now apply (sum_con n _ _ H). Qed.

End Rho.
End BitNum.
