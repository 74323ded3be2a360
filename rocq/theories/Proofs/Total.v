(** Runs with witnesses that always return, whether or not what they assert is true, and whose
    stored values then satisfy the constraints exactly when it is (C82). *)
From Coq Require Import ZArith Bool List Lia ZifyBool ZifyNat.
From Verif.Model Require Import Base CS Bellpepper Util Poly Bignat.
From Verif.Spec Require Import Spec.
From Verif.Proofs Require Import Field Arith Convert Limbs Wp Lc BitNum PolyP BoolP BignatEq BignatAlloc Group Carry Regroup Mult MultC Owp TopBits TopBignat1 TopBignat2 TopBignat3.
Import ListNotations.
Local Open Scope Z_scope.

Section Twp.
Context {E : Env}.

(** The run returns, with a value for which [Q] holds; constraints are ignored. *)
Definition twp {A} (rho : assignment) (m : prog A) (Q : A -> Prop) : Prop :=
  owp rho m (fun r => exists a, r = Ok a /\ Q a).

Lemma twp_mono {A} rho (m : prog A) (Q R : A -> Prop) : twp rho m Q -> (forall a, Q a -> R a) -> twp rho m R.
Proof. intros H HR. eapply owp_mono; [exact H|]. intros r (a & -> & Ha). eauto. Qed.
Lemma twp_ret {A} rho (a : A) (Q : A -> Prop) : Q a -> twp rho (Ret a) Q.
Proof. intros H. red; cbn. eauto. Qed.
Lemma twp_bind {A B} rho (m : prog A) (f : A -> prog B) Q : twp rho m (fun a => twp rho (f a) Q) -> twp rho (bind m f) Q.
Proof. intros H. apply owp_bind. eapply owp_mono; [exact H|]. intros r (a & -> & Ha). exact Ha. Qed.
Lemma twp_ns {A} rho nm (m : prog A) Q : twp rho m Q -> twp rho (ns nm m) Q.
Proof. intros H. now apply owp_ns. Qed.
Lemma twp_lift {A} rho (r : res A) a (Q : A -> Prop) : r = Ok a -> Q a -> twp rho (lift r) Q.
Proof. intros -> H. now apply twp_ret. Qed.
Lemma twp_hwp {A} rho (m : prog A) Q : hwp rho m Q -> twp rho m Q.
Proof. intros H. eapply hwp_owp; [exact H|]. eauto. Qed.
Lemma twp_enforce rho nm a b c (Q : unit -> Prop) : Q tt -> twp rho (enforce nm a b c) Q.
Proof. intros H. red; cbn. eauto. Qed.
Lemma twp_alloc rho nm w z (Q : var * option Z -> Prop) : w = Ok z -> (forall x, rho x = z -> Q (x, Some z)) -> twp rho (alloc nm w) Q.
Proof. intros -> H. red; cbn. eauto. Qed.

Lemma twp_mapM {A B} rho (f : A -> prog B) (R : A -> B -> Prop) : forall l (Q : list B -> Prop),
  (forall a, In a l -> twp rho (f a) (R a)) -> (forall bs, Forall2 R l bs -> Q bs) -> twp rho (mapM f l) Q.
Proof.
  induction l as [|a l IH]; intros Q Hf HQ; cbn [mapM].
  - apply twp_ret, HQ. constructor.
  - apply twp_bind. eapply twp_mono; [apply Hf; now left|]. intros b Hb. apply twp_bind.
    apply IH; [intros; apply Hf; now right|]. intros bs Hbs. apply twp_ret, HQ. now constructor.
Qed.
Lemma twp_iterM {A} rho (f : A -> prog unit) : forall l (Q : unit -> Prop),
  (forall a, In a l -> twp rho (f a) (fun _ => True)) -> Q tt -> twp rho (iterM f l) Q.
Proof.
  induction l as [|a l IH]; intros Q Hf HQ; cbn [iterM].
  - now apply twp_ret.
  - apply twp_bind. eapply twp_mono; [apply Hf; now left|]. intros [] _. apply IH; auto. intros; apply Hf; now right.
Qed.
Lemma twp_foldM {A S} rho (f : S -> A -> prog S) (I : S -> Prop) : forall l s (Q : S -> Prop),
  I s -> (forall s a, In a l -> I s -> twp rho (f s a) I) -> (forall s, I s -> Q s) -> twp rho (foldM f l s) Q.
Proof.
  induction l as [|a l IH]; intros s Q Hs Hf HQ; cbn [foldM].
  - apply twp_ret; auto.
  - apply twp_bind. eapply twp_mono; [apply Hf; [now left|auto]|]. intros s' Hs'. apply IH; auto.
    intros; apply Hf; auto. now right.
Qed.

Lemma twp_run {A} (m : prog A) s : good s ->
  (forall rho, agree s rho -> rho ONE = 1 -> twp rho m (fun _ => True)) -> exists a s', run true m s = (Ok a, s').
Proof.
  intros G H. pose proof (owp_result m s (fun r => exists a, r = Ok a /\ True) G H) as (a & Ha & _).
  destruct (run true m s) as [r s']. cbn in Ha. subst. eauto.
Qed.

(** The verdict of such a run. *)
Lemma twp_decides {A} (m : prog A) s (P : Prop) : good s ->
  (forall rho, agree s rho -> rho ONE = 1 -> twp rho m (fun _ => True)) ->
  (forall rho, agree s rho -> rho ONE = 1 -> swp Honest rho m (fun _ => P)) ->
  (P -> forall rho, agree s rho -> rho ONE = 1 -> hwp rho m (fun _ => True)) ->
  exists a s', run true m s = (Ok a, s') /\ (good s' <-> P).
Proof.
  intros G HT HS HC. destruct (twp_run m s G HT) as (a & s' & Hr). exists a, s'. split; auto. split.
  - intros G'. exact (honest_good m s a s' (fun _ => P) G Hr G' HS).
  - intros HP. destruct (hwp_run m s (fun _ _ => True) G (HC HP)) as (a' & s'' & Hr' & G' & _).
    rewrite Hr in Hr'. injection Hr' as <- <-. exact G'.
Qed.
End Twp.

Section Gadgets.
Context {E : Env} {W : Wf E}.
Context (rho : assignment) (one : rho ONE = 1).

Lemma fits_twp n k v (Q : unit -> Prop) : n_val n = Some v -> canon v -> (k <= NUM_BITS)%nat -> Q tt ->
  twp rho (fits_in_bits n k) Q.
Proof.
  intros Hv Hc Hk HQ. unfold fits_in_bits. apply twp_bind.
  apply (twp_mapM _ _ (fun _ _ => True)).
  - intros i Hi. apply in_seq in Hi. apply twp_bind. eapply twp_alloc.
    + rewrite Hv. apply bit_scalar_ok; auto. lia.
    + intros x _. now apply twp_ret.
  - intros xs _. apply twp_bind. apply twp_iterM; [|now apply twp_enforce].
    intros. now apply twp_enforce.
Qed.

Lemma bit_alloc_twp v (Q : bit -> Prop) : (forall b, Q b) -> twp rho (bit_alloc (Some v)) Q.
Proof.
  intros HQ. unfold bit_alloc. apply twp_bind. eapply twp_alloc; [reflexivity|].
  intros x _. apply twp_bind, twp_enforce, twp_ret, HQ.
Qed.

Lemma decompose_twp n k v (Q : bitvector -> Prop) : n_val n = Some v -> canon v -> (k <= NUM_BITS)%nat ->
  (forall bv, Q bv) -> twp rho (num_decompose n k) Q.
Proof.
  intros Hv Hc Hk HQ. unfold num_decompose. rewrite Hv.
  assert (HB : rmapM (fun i => let? ob := get_bit v i in unwrap ob) (seq 0 k) =
               Ok (map (fun i => Z.testbit v (Z.of_nat i)) (seq 0 k))).
  { assert (H : forall l, (forall i, In i l -> (i < k)%nat) ->
      rmapM (fun i => let? ob := get_bit v i in unwrap ob) l = Ok (map (fun i => Z.testbit v (Z.of_nat i)) l)).
    { induction l as [|i l IH]; intros Hl; cbn [rmapM map]; auto.
      assert (Hi : (i < k)%nat) by (apply Hl; now left). pose proof wf_bits.
      rewrite get_bit_in by (auto; lia).
      cbn [rbind unwrap]. rewrite IH by (intros; apply Hl; now right). reflexivity. }
    apply H. intros i Hi. apply in_seq in Hi. lia. }
  rewrite HB. cbn [rbind lift bind]. apply twp_bind. apply (twp_mapM _ _ (fun _ _ => True)).
  - intros i Hi. apply in_seq in Hi. apply twp_ns.
    destruct (nth_error _ i) as [x|] eqn:He.
    + now apply bit_alloc_twp.
    + apply nth_error_None in He. rewrite map_length, seq_length in He. lia.
  - intros bits _. apply twp_bind, twp_enforce, twp_ret, HQ.
Qed.

Lemma num_alloc_twp w z (Q : num -> Prop) : w = Ok z -> (forall x, rho x = z -> Q (mkNum (lc_var x) (Some z))) ->
  twp rho (num_alloc w) Q.
Proof.
  intros Hw HQ. unfold num_alloc. apply twp_bind. eapply twp_alloc; [exact Hw|]. intros x Hx. apply twp_ret; auto.
Qed.

Lemma idx_nth (l : list Z) i : (i < length l)%nat -> idx l i = Ok (nth i l 0).
Proof. intros H. unfold idx. now rewrite (nth_error_nth' l 0). Qed.

(** The carried comparison returns as soon as no limb of the subtracted number exceeds the bound. *)
Lemma when_carried_twp a b xs ys (Q : unit -> Prop) :
  let w := limb_width (bparams a) in
  let M := Z.max (max_word (bparams a)) (max_word (bparams b)) in
  limb_width (bparams b) = w -> limb_values a = Some xs -> limb_values b = Some ys ->
  length (limbs a) = length xs -> length (limbs b) = length ys -> Forall canon xs -> Forall canon ys ->
  Forall (fun d => d <= M) ys -> 0 <= M -> (1 <= w)%nat -> (carry_bits_f64 M w <= NUM_BITS)%nat -> Q tt ->
  twp rho (equal_when_carried a b) Q.
Proof.
  intros w M HW La Lb Na Nb Cx Cy HY HM Hw Hcb HQ. unfold equal_when_carried, width_agreement. rewrite HW. fold w.
  rewrite Nat.eqb_refl. cbn [lift bind]. rewrite Na, Nb. fold M. set (n := Nat.min (length xs) (length ys)).
  rewrite Z.shiftl_mul_pow2, Z.mul_1_l by lia. set (base := 2 ^ Z.of_nat w) in *.
  assert (HB : 2 <= base) by (change 2 with (2 ^ Z.of_nat 1); now apply pow2_le).
  apply twp_bind. apply (twp_foldM _ _ (fun s => 0 <= fst s /\ exists c, n_val (snd s) = Some c /\ canon c)).
  - cbn. split; [lia|]. exists 0. split; auto using canon_0.
  - intros [e carry] i Hi (He & c & Hc & Cc). cbn [fst snd] in *. apply in_seq in Hi.
    unfold carry_step. apply twp_bind, twp_ns.
    assert (Cyi : canon (nth i ys 0)) by (apply (nth_range canon); auto using canon_0).
    assert (Cxi : canon (nth i xs 0)) by (apply (nth_range canon); auto using canon_0).
    assert (By : nth i ys 0 <= M) by (apply (nth_range (fun d => d <= M)); auto).
    eapply num_alloc_twp.
    + unfold carry_witness. rewrite La, Hc. cbn [grab rbind unwrap]. rewrite idx_nth by lia. cbn [rbind unwrap].
      rewrite Lb. cbn [grab rbind]. rewrite idx_nth by lia. cbn [rbind]. rewrite !f_to_nat_canon by auto.
      rewrite nat_to_f_unwrap; [reflexivity|]. apply Z.quot_pos; unfold canon in *; lia.
    + intros x Hx.
      apply twp_bind. eapply twp_lift; [now apply nat_to_f_unwrap|].
      apply twp_bind. eapply twp_lift; [apply nat_to_f_unwrap; lia|].
      apply twp_bind. eapply twp_lift; [apply nat_to_f_unwrap, Z.rem_nonneg; lia|].
      apply twp_bind, twp_enforce. apply twp_bind.
      assert (HE : 0 <= Z.quot (e + M) base) by (apply Z.quot_pos; lia).
      assert (HK : twp rho (Ret (Z.quot (e + M) base,
         mkNum (lc_var x) (Some (fmk (Z.quot (nth i xs 0 + c + M - nth i ys 0) base)))))
         (fun s => 0 <= fst s /\ exists c, n_val (snd s) = Some c /\ canon c)).
      { apply twp_ret. cbn [fst snd n_val]. split; auto. eexists. split; [reflexivity|apply fmk_canon]. }
      destruct (i <? n - 1)%nat.
      * apply twp_ns. eapply fits_twp; [reflexivity|apply fmk_canon|exact Hcb|exact HK].
      * apply twp_bind. eapply twp_lift; [now apply nat_to_f_unwrap|]. apply twp_enforce, HK.
  - intros s _. apply twp_bind, twp_iterM; [intros; now apply twp_enforce|].
    apply twp_iterM; auto. intros; now apply twp_enforce.
Qed.

Lemma regroup_twp a b xs ys (Q : unit -> Prop) :
  let w := limb_width (bparams a) in
  let M := Z.max (max_word (bparams a)) (max_word (bparams b)) in
  let g := group_size M w in
  limb_width (bparams b) = w -> lv_ok a -> lv_ok b -> limb_values a = Some xs -> limb_values b = Some ys ->
  Forall (fun d => 0 <= d <= max_word (bparams b)) ys ->
  (1 <= w)%nat -> (1 <= length xs)%nat -> (1 <= length ys)%nat ->
  (carry_bits_f64 M w <= CAPACITY)%nat -> (1 <= g)%nat ->
  (carry_bits_f64 (group_word M w) (w * g) <= NUM_BITS)%nat -> Q tt ->
  twp rho (equal_when_carried_regroup a b) Q.
Proof.
  intros w M g HW Ha Hb La Lb HY Hw Lx Ly Hcb Hg Hcb' HQ. unfold equal_when_carried_regroup, width_agreement.
  rewrite HW. fold w. rewrite Nat.eqb_refl. cbn [lift bind]. fold M.
  unfold usub. rewrite (proj2 (Nat.leb_le _ _)) by auto. cbn [lift bind].
  rewrite (proj2 (Nat.eqb_neq w 0)) by lia. cbn [lift bind]. fold (group_size M w). fold g.
  assert (LA : length (limbs a) = length xs) by (unfold lv_ok in Ha; rewrite La in Ha; symmetry; apply Ha).
  assert (LB : length (limbs b) = length ys) by (unfold lv_ok in Hb; rewrite Lb in Hb; symmetry; apply Hb).
  destruct (group_limbs_ok a g ltac:(lia) Hg Ha) as (ga & A1 & A2 & A3 & A4 & A5 & A6 & A7).
  destruct (group_limbs_ok b g ltac:(lia) Hg Hb) as (gb & B1 & B2 & B3 & B4 & B5 & B6 & B7).
  rewrite A1, B1. cbn [lift bind]. specialize (A7 _ La). specialize (B7 _ Lb). fold w in A2, A7. rewrite HW in B2, B7.
  rewrite LA in *. rewrite LB in *. set (B := 2 ^ Z.of_nat w) in *.
  assert (HM : Z.max (max_word (bparams ga)) (max_word (bparams gb)) = group_word M w).
  { rewrite A2, B2. cbn [max_word]. rewrite ones_at_max by lia. fold M.
    rewrite group_word_ones, ones_at_spec by lia. reflexivity. }
  assert (Mxb : 0 <= max_word (bparams b)) by (destruct ys; [simpl in Ly; lia|]; inversion HY; subst; lia).
  assert (BY : Forall (fun d => 0 <= d <= max_word (bparams gb)) (group_digits B g (n_groups (length ys) g) ys)).
  { rewrite B2. cbn [max_word]. rewrite ones_at_spec by lia. apply group_digits_bound; auto. apply pow2_pos. }
  assert (Hlw : limb_width (bparams ga) = (w * g)%nat) by (rewrite A2; reflexivity).
  apply twp_ns. eapply (when_carried_twp ga gb); [|exact A7|exact B7|..]; rewrite ?HM, ?Hlw; auto.
  - rewrite B2. reflexivity.
  - now rewrite A3, map_length, group_digits_length.
  - now rewrite B3, map_length, group_digits_length.
  - apply Forall_map, Forall_forall. intros. apply fmk_canon.
  - apply Forall_map, Forall_forall. intros. apply fmk_canon.
  - apply Forall_map, Forall_forall. intros d Hd. rewrite Forall_forall in BY. specialize (BY d Hd).
    cbv beta in BY. pose proof (Z.mod_le d modulus (proj1 BY) mod_pos). unfold fmk. lia.
  - rewrite group_word_ones. apply Z.mul_nonneg_nonneg; [apply ones_nonneg, pow2_pos|unfold M; lia].
  - nia.
Qed.

End Gadgets.
