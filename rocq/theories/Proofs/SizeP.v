(** Sizes of circuits. *)
From Coq Require Import ZArith Bool List Lia.
From Verif.Model Require Import Base CS Bellpepper Util Poly Bignat Gadget Median Difficulty.
From Verif.Spec Require Import Spec SpecSize.
From Verif.Proofs Require Import Wp Arith Group Regroup.
Import ListNotations.
Local Open Scope nat_scope.

(** Size together with a fact about the result. *)
Definition sz {A} (m : prog A) (i a k : nat) (P : A -> Prop) : Prop := forall wit s x s',
  run wit m s = (Ok x, s') ->
  (length (st_in s') = length (st_in s) + i /\
   length (st_aux s') = length (st_aux s) + a /\
   length (st_cons s') = length (st_cons s) + k) /\ P x.

Lemma sz_has {A} (m : prog A) i a k P : sz m i a k P -> has_size m i a k.
Proof. intros H wit s x s' Hr. apply (H wit s x s' Hr). Qed.
Lemma sz_conv {A} (m : prog A) i a k i' a' k' (P Q : A -> Prop) : sz m i a k P -> i = i' -> a = a' -> k = k' ->
  (forall x, P x -> Q x) -> sz m i' a' k' Q.
Proof. intros H -> -> -> HQ wit s x s' Hr. destruct (H wit s x s' Hr). auto. Qed.
Lemma sz_weak {A} (m : prog A) i a k (P Q : A -> Prop) : sz m i a k P -> (forall x, P x -> Q x) -> sz m i a k Q.
Proof. intros. eapply sz_conv; eauto. Qed.
Lemma sz_ret {A} (x : A) (P : A -> Prop) : P x -> sz (Ret x) 0 0 0 P.
Proof. intros H wit s y s' Hr. injection Hr as <- <-. rewrite !Nat.add_0_r. auto. Qed.
Lemma sz_fail {A} e i a k (P : A -> Prop) : sz (Fail e) i a k P.
Proof. intros wit s y s' Hr. discriminate Hr. Qed.
Lemma sz_crash {A} i a k (P : A -> Prop) : sz Crash i a k P.
Proof. intros wit s y s' Hr. discriminate Hr. Qed.
Lemma sz_lift {A} (r : res A) (P : A -> Prop) : (forall x, r = Ok x -> P x) -> sz (lift r) 0 0 0 P.
Proof. intros H. destruct r; [apply sz_ret; auto|apply sz_fail|apply sz_crash]. Qed.
Lemma sz_bind {A B} (m : prog A) (f : A -> prog B) i1 a1 k1 P i2 a2 k2 Q :
  sz m i1 a1 k1 P -> (forall x, P x -> sz (f x) i2 a2 k2 Q) ->
  sz (bind m f) (i1 + i2) (a1 + a2) (k1 + k2) Q.
Proof.
  intros Hm Hf wit s y s' Hr. rewrite run_bind in Hr. destruct (run wit m s) as [[x|e|] s1] eqn:E1; try discriminate.
  destruct (Hm _ _ _ _ E1) as [(H1 & H2 & H3) Hp]. destruct (Hf x Hp _ _ _ _ Hr) as [(K1 & K2 & K3) Hq].
  split; auto. lia.
Qed.
(** A step that adds nothing. *)
Lemma sz_lift_bind {A B} (r : res A) (f : A -> prog B) i a k Q :
  (forall x, r = Ok x -> sz (f x) i a k Q) -> sz (bind (lift r) f) i a k Q.
Proof. intros H. destruct r; cbn; [now apply H|apply sz_fail|apply sz_crash]. Qed.
Lemma sz_ns {A} nm (m : prog A) i a k P : sz m i a k P -> sz (ns nm m) i a k P.
Proof.
  intros H wit s x s' Hr. unfold ns in Hr. cbn [run] in Hr. rewrite run_bind in Hr.
  destruct (run wit m (push_ns nm s)) as [[y|e|] s1] eqn:E1; try discriminate.
  cbn [run] in Hr. injection Hr as <- <-. exact (H _ _ _ _ E1).
Qed.
Lemma sz_unwrap {A} (m : prog A) : forall i a k P, sz m i a k P -> sz (unwrap_prog m) i a k P.
Proof.
  assert (K : forall A (m : prog A) wit s x s', run wit (unwrap_prog m) s = (Ok x, s') -> run wit m s = (Ok x, s')).
  { clear. induction m as [a|e| |inp nm w k IH|nm c k IH|nm k IH|k IH]; cbn [unwrap_prog run]; intros wit s x s' H; auto; try discriminate.
    destruct wit; auto. destruct w; cbn in H; auto; discriminate. }
  intros i a k P H wit s x s' Hr. apply (H wit s x s'). now apply K.
Qed.
Lemma sz_alloc nm w (P : var * option Z -> Prop) : (forall x v, P (x, v)) -> sz (alloc nm w) 0 1 0 P.
Proof.
  intros HP wit s x s' Hr. unfold alloc in Hr. cbn [run] in Hr.
  destruct wit; [destruct w; try discriminate|]; injection Hr as <- <-; cbn; rewrite app_length; cbn; split; auto; lia.
Qed.
Lemma sz_alloc_input nm w (P : var * option Z -> Prop) : (forall x v, P (x, v)) -> sz (alloc_input nm w) 1 0 0 P.
Proof.
  intros HP wit s x s' Hr. unfold alloc_input in Hr. cbn [run] in Hr.
  destruct wit; [destruct w; try discriminate|]; injection Hr as <- <-; cbn; rewrite app_length; cbn; split; auto; lia.
Qed.
Lemma sz_enforce nm a b c : sz (enforce nm a b c) 0 0 1 (fun _ => True).
Proof. intros wit s x s' Hr. cbn in Hr. injection Hr as <- <-. cbn. split; auto. lia. Qed.
Lemma sz_Enforce {A} nm c (m : prog A) i a k P : sz m i a k P -> sz (Enforce nm c m) i a (S k) P.
Proof. intros H wit s x s' Hr. cbn in Hr. destruct (H _ _ _ _ Hr) as [(H1 & H2 & H3) HP]. cbn in *. split; auto. lia. Qed.

Lemma sz_mapM {A B} (f : A -> prog B) i a k (R : A -> B -> Prop) : forall l, (forall x, In x l -> sz (f x) i a k (R x)) ->
  sz (mapM f l) (length l * i) (length l * a) (length l * k) (fun ys => Forall2 R l ys).
Proof.
  induction l as [|x l IH]; intros H; cbn [mapM length Nat.mul].
  - apply sz_ret. constructor.
  - eapply sz_bind; [apply H; now left|]. intros y Hy.
    eapply sz_conv; [eapply sz_bind; [apply IH; intros; apply H; now right|]|..]; [|instantiate (1 := 0); lia..|intros ? G; exact G].
    intros ys Hys. apply sz_ret. constructor; auto.
Qed.
Lemma sz_iterM {A} (f : A -> prog unit) i a k : forall l, (forall x, In x l -> sz (f x) i a k (fun _ => True)) ->
  sz (iterM f l) (length l * i) (length l * a) (length l * k) (fun _ => True).
Proof.
  induction l as [|x l IH]; intros H; cbn [iterM length Nat.mul].
  - now apply sz_ret.
  - eapply sz_bind; [apply H; now left|]. intros y Hy. apply IH. intros; apply H; now right.
Qed.
Lemma sz_foldM {A S} (f : S -> A -> prog S) i a k (I : S -> Prop) : forall l s, I s ->
  (forall s x, I s -> In x l -> sz (f s x) i a k I) ->
  sz (foldM f l s) (length l * i) (length l * a) (length l * k) I.
Proof.
  induction l as [|x l IH]; intros s Hs H; cbn [foldM length Nat.mul].
  - now apply sz_ret.
  - eapply sz_bind; [apply H; auto; now left|]. intros y Hy. apply IH; auto. intros; apply H; auto; now right.
Qed.

(** Stepping through a bind with arbitrary totals. *)
Lemma sz_step {A B} (m : prog A) (f : A -> prog B) i1 a1 k1 P i a k Q :
  sz m i1 a1 k1 P -> i1 <= i -> a1 <= a -> k1 <= k -> (forall x, P x -> sz (f x) (i - i1) (a - a1) (k - k1) Q) ->
  sz (bind m f) i a k Q.
Proof. intros Hm L1 L2 L3 Hf. eapply sz_conv; [eapply sz_bind; [exact Hm|exact Hf]|lia..|auto]. Qed.
Lemma sz_end {A} (x : A) i a k (P : A -> Prop) : i = 0 -> a = 0 -> k = 0 -> P x -> sz (Ret x) i a k P.
Proof. intros -> -> ->. apply sz_ret. Qed.
Lemma sz_last {A} (m : prog A) i a k i' a' k' (P Q : A -> Prop) : sz m i a k P -> i = i' -> a = a' -> k = k' ->
  (forall x, P x -> Q x) -> sz m i' a' k' Q.
Proof. apply sz_conv. Qed.

Ltac szl := rewrite ?combine_length, ?seq_length; try lia.
Ltac stp L := eapply sz_step; [L|szl|szl|szl|intros ? ?].
Ltac fin L := eapply sz_last; [L|szl|szl|szl|auto].
Ltac ret := apply sz_end; [szl|szl|szl|auto].

Section SizeG.
Context {E : Env}.
Local Notation yes := (fun _ => True).

Lemma z_an_alloc w : sz (an_alloc w) 0 1 0 yes.
Proof. unfold an_alloc. stp ltac:(apply (sz_alloc _ _ yes); auto). destruct x. ret. Qed.
Lemma z_num_alloc w : sz (num_alloc w) 0 1 0 yes.
Proof. unfold num_alloc. stp ltac:(apply (sz_alloc _ _ yes); auto). destruct x. ret. Qed.
Lemma z_an_add a b : sz (an_add a b) 0 1 1 yes.
Proof. unfold an_add. stp ltac:(apply (sz_alloc _ _ yes); auto). destruct x. stp ltac:(apply sz_enforce). ret. Qed.
Lemma z_ab_alloc v : sz (ab_alloc v) 0 1 1 yes.
Proof. unfold ab_alloc. stp ltac:(apply (sz_alloc _ _ yes); auto). destruct x. stp ltac:(apply sz_enforce). ret. Qed.
Lemma z_bit_alloc v : sz (bit_alloc v) 0 1 1 yes.
Proof. unfold bit_alloc. stp ltac:(apply (sz_alloc _ _ yes); auto). destruct x. stp ltac:(apply sz_enforce). ret. Qed.
Lemma z_bit_constrain b v : sz (bit_constrain_value b v) 0 0 1 yes.
Proof. unfold bit_constrain_value. destruct v; fin ltac:(apply sz_enforce). Qed.
Lemma z_sapling n : sz (as_sapling_allocated_num n) 0 1 1 yes.
Proof. unfold as_sapling_allocated_num. stp ltac:(apply sz_ns, z_an_alloc). stp ltac:(apply sz_enforce). ret. Qed.

Lemma F2_len {A B} (R : A -> B -> Prop) l l' : Forall2 R l l' -> length l' = length l.
Proof. intros H. symmetry. eapply Forall2_length; eauto. Qed.

Lemma z_fits n k : sz (fits_in_bits n k) 0 (k - 1) (S (k - 1)) yes.
Proof.
  unfold fits_in_bits.
  stp ltac:(apply (sz_mapM _ 0 1 0 (fun _ => yes))).
  { intros i _. stp ltac:(apply (sz_alloc _ _ yes); auto). destruct x. ret. }
  rewrite seq_length. apply F2_len in H. rewrite seq_length in H.
  stp ltac:(apply (sz_iterM _ 0 0 1); intros; apply sz_enforce).
  rewrite combine_length, seq_length. fin ltac:(apply sz_enforce).
Qed.
Lemma z_is_equal_num n b : sz (num_is_equal n b) 0 0 1 yes.
Proof. apply sz_enforce. Qed.
Lemma z_decompose_num n k : sz (num_decompose n k) 0 k (S k) (fun b => length (bv_bits b) = k /\ length (bv_allocs b) = k).
Proof.
  unfold num_decompose. apply sz_lift_bind. intros vs _.
  stp ltac:(apply (sz_mapM _ 0 1 1 (fun _ => yes)); intros; apply sz_ns, z_bit_alloc).
  rewrite seq_length. apply F2_len in H. rewrite seq_length in H. stp ltac:(apply sz_enforce). ret.
  cbn. now rewrite map_length.
Qed.
Lemma z_equals a b : sz (equals a b) 0 4 6 (fun r => exists x, r = BIs x).
Proof.
  unfold equals. stp ltac:(apply sz_ns, z_ab_alloc). stp ltac:(apply sz_ns, z_an_alloc). stp ltac:(apply sz_enforce).
  do 2 stp ltac:(apply sz_ns, z_an_alloc). do 4 stp ltac:(apply sz_enforce). ret. eauto.
Qed.

(** ** Big naturals *)
Lemma z_limbs (f : nat -> name) g l : sz (mapM (fun i => alloc (f i) (g i)) l) 0 (length l) 0 (fun xs => length xs = length l).
Proof.
  fin ltac:(apply (sz_mapM _ 0 1 0 (fun _ => yes)); intros; apply sz_alloc; auto). intros ys H. now apply F2_len in H.
Qed.
Lemma xs_lcs_len xs : length (xs_lcs xs) = length xs.
Proof. apply map_length. Qed.
Lemma z_alloc_nat f w n : sz (alloc_from_nat f w n) 0 n 0 (fun b => length (limbs b) = n /\ bparams b = params_new w n).
Proof.
  unfold alloc_from_nat. stp ltac:(apply z_limbs).
  rewrite seq_length in *. destruct (match captured x with [] => _ | _ => _ end) as [u v]. ret. cbn. rewrite xs_lcs_len. auto.
Qed.
Lemma z_alloc_limbs f mw w n : sz (alloc_from_limbs f mw w n) 0 n 0 (fun b => length (limbs b) = n /\ limb_width (bparams b) = w /\ n_limbs (bparams b) = n).
Proof.
  unfold alloc_from_limbs. stp ltac:(apply z_limbs).
  rewrite seq_length in *. destruct (match captured x with [] => _ | _ => _ end) as [u v]. ret. cbn. rewrite xs_lcs_len. auto.
Qed.
Lemma comb_len {A} (l : list A) : length (combine (seq 0 (length l)) l) = length l.
Proof. rewrite combine_length, seq_length. lia. Qed.
Lemma limb_nums_len b : length (limb_nums b) = length (limbs b).
Proof. unfold limb_nums. rewrite map_length. apply comb_len. Qed.
Lemma comb_len' {A} (l : list A) n : n = length l -> length (combine (seq 0 n) l) = n.
Proof. intros ->. apply comb_len. Qed.

Lemma z_inputize b : sz (bn_inputize b) (length (limbs b)) 0 (length (limbs b)) yes.
Proof.
  unfold bn_inputize. eapply sz_last; [apply (sz_iterM _ 1 0 1)| | | |auto]; rewrite ?comb_len; try lia.
  intros p _. apply sz_ns. stp ltac:(apply (sz_alloc_input _ _ yes); auto). destruct x. fin ltac:(apply sz_enforce).
Qed.
Lemma z_ginputize b : sz (gadget_inputize b) (length (limbs b)) 0 (length (limbs b)) yes.
Proof.
  unfold gadget_inputize. eapply sz_last; [apply (sz_iterM _ 1 0 1)| | | |auto]; rewrite ?comb_len; try lia.
  intros p _. apply sz_ns. stp ltac:(apply (sz_alloc_input _ _ yes); auto). destruct x. fin ltac:(apply sz_enforce).
Qed.
Lemma z_as_nums b : sz (as_nums b) 0 (length (limbs b)) (length (limbs b)) (fun l => length l = length (limbs b)).
Proof.
  unfold as_nums. eapply sz_last; [apply (sz_mapM _ 0 1 1 (fun _ => yes))| | | |]; rewrite ?comb_len; try lia.
  - intros p _. stp ltac:(apply sz_ns, z_an_alloc). stp ltac:(apply sz_enforce). ret.
  - intros l H. apply F2_len in H. now rewrite comb_len in H.
Qed.
Lemma z_equal_ge a b : length (limbs b) <= length (limbs a) -> sz (equal_ge a b) 0 0 (length (limbs a)) yes.
Proof.
  intros H. unfold equal_ge. apply sz_lift_bind. intros _ _.
  stp ltac:(apply (sz_iterM _ 0 0 1); intros; apply sz_enforce).
  fin ltac:(apply (sz_iterM _ 0 0 1); intros; apply sz_enforce).
Qed.
Lemma z_equal a b : sz (equal a b) 0 0 (Nat.max (length (limbs a)) (length (limbs b))) yes.
Proof.
  unfold equal. destruct (Nat.ltb_spec (length (limbs a)) (length (limbs b))); fin ltac:(apply z_equal_ge; lia).
Qed.
Lemma z_and_bits a b : sz (bool_and (BIs a) (BIs b)) 0 1 1 (fun r => exists x, r = BIs x).
Proof.
  unfold bool_and, ab_and. eapply sz_step with (i1 := 0) (a1 := 1) (k1 := 1) (P := yes); try lia.
  - stp ltac:(apply (sz_alloc _ _ yes); auto). destruct x. stp ltac:(apply sz_enforce). ret.
  - intros r _. ret. eauto.
Qed.

Lemma z_or_bits a b : sz (bool_or (BIs a) (BIs b)) 0 1 1 yes.
Proof.
  unfold bool_or. cbn [bool_not]. unfold bool_and, ab_nor. eapply sz_step with (i1 := 0) (a1 := 1) (k1 := 1) (P := yes); try lia.
  - apply sz_ns. eapply sz_step with (i1 := 0) (a1 := 1) (k1 := 1) (P := yes); try lia.
    + stp ltac:(apply (sz_alloc _ _ yes); auto). destruct x. stp ltac:(apply sz_enforce). ret.
    + intros r _. ret.
  - intros r _. ret.
Qed.

Lemma z_is_equal a b : sz (is_equal a b) 0 (7 * length (limbs a) - 1) (9 * length (limbs a) - 1) yes.
Proof.
  unfold is_equal. destruct (negb _); [apply sz_fail|]. apply sz_lift_bind. intros _ _.
  match goal with |- sz (foldM ?F _ _) _ _ _ _ => set (f := F) end.
  assert (H0 : forall r i, sz (f r i) 0 (match r with BIs _ => 7 | BConst true => 6 | _ => 0 end)
      (match r with BIs _ => 9 | BConst true => 8 | _ => 0 end) (fun r => exists x, r = BIs x) \/ ~ exists x, r = BIs x \/ r = BConst true).
  { intros r i. destruct r as [x|x|[]]; [left|right|left|right]; try (intros [y [H|H]]; discriminate H).
    - unfold f. stp ltac:(apply sz_ns, z_an_alloc). stp ltac:(apply sz_enforce). stp ltac:(apply sz_ns, z_an_alloc). stp ltac:(apply sz_enforce).
      stp ltac:(apply sz_ns, z_equals). destruct H3 as [y ->]. fin ltac:(apply sz_ns, z_and_bits).
    - unfold f. stp ltac:(apply sz_ns, z_an_alloc). stp ltac:(apply sz_enforce). stp ltac:(apply sz_ns, z_an_alloc). stp ltac:(apply sz_enforce).
      stp ltac:(apply sz_ns, z_equals). destruct H3 as [y ->]. apply sz_ns. ret. eauto. }
  assert (H1 : forall i, sz (f (BConst true) i) 0 6 8 (fun r => exists x, r = BIs x)).
  { intros i. destruct (H0 (BConst true) i) as [H|H]; [exact H|]. exfalso. apply H. exists (mkAB ONE None). now right. }
  assert (H2 : forall x i, sz (f (BIs x) i) 0 7 9 (fun r => exists x, r = BIs x)).
  { intros x i. destruct (H0 (BIs x) i) as [H|H]; [exact H|]. exfalso. apply H. exists x. now left. }
  destruct (length (limbs a)) as [|n]; cbn [seq foldM]; [ret|].
  stp ltac:(apply H1). destruct H as [y ->].
  fin ltac:(apply (sz_foldM f 0 7 9 (fun r => exists x, r = BIs x))).
  - eauto.
  - intros r j [z ->] _. apply H2.
Qed.
Lemma z_well_formed b : sz (assert_well_formed b) 0 (length (limbs b) * (limb_width (bparams b) - 1)) (length (limbs b) * S (limb_width (bparams b) - 1)) yes.
Proof.
  unfold assert_well_formed. eapply sz_last; [apply (sz_iterM _ 0 (limb_width (bparams b) - 1) (S (limb_width (bparams b) - 1)))| | | |auto].
  - intros p _. apply sz_lift_bind. intros n _. apply sz_ns, z_fits.
  - lia.
  - now rewrite comb_len' by (symmetry; apply limb_nums_len).
  - now rewrite comb_len' by (symmetry; apply limb_nums_len).
Qed.
Lemma z_bn_decompose b : sz (bn_decompose b) 0 (length (limbs b) * limb_width (bparams b)) (length (limbs b) * S (limb_width (bparams b))) yes.
Proof.
  unfold bn_decompose. set (w := limb_width (bparams b)).
  assert (L : length (combine (seq 0 (length (limbs b))) (limb_nums b)) = length (limbs b)) by (apply comb_len'; symmetry; apply limb_nums_len).
  eapply sz_step; [apply (sz_mapM _ 0 w (S w) (fun _ => yes))|rewrite L; lia..|].
  - intros p _. apply sz_lift_bind. intros n _. eapply sz_weak; [apply sz_ns, z_decompose_num|auto].
  - intros x _. rewrite L. ret.
Qed.
Lemma z_from_num n w k : sz (from_num n w k) 0 (k + k * w) (k * S w + 1) (fun b => length (limbs b) = k /\ bparams b = params_new w k).
Proof.
  unfold from_num. stp ltac:(apply sz_ns, z_alloc_nat). destruct H as [Hl Hp].
  assert (Hw : limb_width (bparams x) = w) by now rewrite Hp.
  pose proof (z_bn_decompose x) as Z. rewrite Hl, Hw in Z. stp ltac:(apply sz_ns, Z). stp ltac:(apply sz_ns, z_is_equal_num). ret.
Qed.
Lemma z_full_bits b : sz (enforce_full_bits b) 0 (limb_width (bparams b)) (limb_width (bparams b) + 2) yes.
Proof.
  unfold enforce_full_bits. apply sz_lift_bind. intros v _. apply sz_lift_bind. intros [l ?] _.
  stp ltac:(apply sz_ns, z_decompose_num). apply sz_lift_bind. intros bits _. apply sz_lift_bind. intros [last ?] _.
  stp ltac:(apply sz_ns, z_bit_constrain). ret.
Qed.
Lemma z_min_bits b mb : sz (enforce_min_bits b mb) 0 (length (limbs b) * limb_width (bparams b) + 1) (length (limbs b) * S (limb_width (bparams b)) + 1) yes.
Proof.
  unfold enforce_min_bits. stp ltac:(apply sz_ns, z_bn_decompose). apply sz_lift_bind. intros bits _. apply sz_lift_bind. intros k _.
  stp ltac:(apply (sz_alloc _ _ yes); auto). destruct x0. stp ltac:(apply sz_enforce). ret.
Qed.
Lemma z_product a b : sz (alloc_product a b) 0 (length (p_coeffs a) + length (p_coeffs b) - 1) (length (p_coeffs a) + length (p_coeffs b) - 1)
  (fun p => length (p_coeffs p) = length (p_coeffs a) + length (p_coeffs b) - 1).
Proof.
  unfold alloc_product. apply sz_lift_bind. intros n Hn.
  assert (n = length (p_coeffs a) + length (p_coeffs b) - 1) as <-.
  { unfold usub in Hn. destruct (_ <=? _); [|discriminate]. now injection Hn. }
  apply sz_lift_bind. intros vs _. stp ltac:(apply (sz_mapM _ 0 1 0 (fun _ => yes))).
  { intros i _. stp ltac:(apply (sz_alloc _ _ yes); auto). destruct x. ret. }
  apply F2_len in H. rewrite seq_length in *. stp ltac:(apply (sz_iterM _ 0 0 1); intros; apply sz_enforce). ret.
Qed.

(** ** Comparison after carrying *)
Lemma z_carry_step a b n mw base cb s i : sz (carry_step a b n mw base cb s i) 0
  (if i <? n - 1 then S (cb - 1) else 1) (if i <? n - 1 then S (S (cb - 1)) else 2) yes.
Proof.
  unfold carry_step. destruct s as [extra ci]. eapply sz_step; [apply sz_ns, z_num_alloc|lia|destruct (_ <? _); lia|lia|intros c _].
  apply sz_lift_bind; intros w1 _. apply sz_lift_bind; intros w2 _. apply sz_lift_bind; intros w3 _. eapply sz_step; [apply sz_enforce|lia|lia|destruct (_ <? _); lia|intros ? _].
  destruct (i <? n - 1).
  - stp ltac:(apply sz_ns, z_fits). ret.
  - stp ltac:(apply sz_lift_bind; intros; apply sz_enforce). ret.
Qed.
Lemma z_carry_fold a b n mw base cb : forall l s, Forall (fun i => i < n - 1) l ->
  sz (foldM (carry_step a b n mw base cb) l s) 0 (length l * S (cb - 1)) (length l * S (S (cb - 1))) yes.
Proof.
  intros l s Hl. fin ltac:(apply (sz_foldM _ 0 (S (cb - 1)) (S (S (cb - 1))) yes); auto).
  intros s' i _ Hi. rewrite Forall_forall in Hl. pose proof (Hl i Hi) as K. apply Nat.ltb_lt in K.
  pose proof (z_carry_step a b n mw base cb s' i) as Z. now rewrite K in Z.
Qed.
Lemma foldM_app {A S} (f : S -> A -> prog S) l1 : forall l2 s wit st, run wit (foldM f (l1 ++ l2) s) st =
  run wit (bind (foldM f l1 s) (foldM f l2)) st.
Proof.
  induction l1 as [|x l1 IH]; intros l2 s wit st; [reflexivity|]. cbn [app foldM]. rewrite !run_bind.
  destruct (run wit (f s x) st) as [[y|e|] s1] eqn:E1; rewrite ?IH, ?run_bind; auto.
Qed.
Lemma z_carries a b n mw base cb s : sz (foldM (carry_step a b n mw base cb) (seq 0 n) s) 0
  (n + (n - 1) * (Nat.max 1 cb - 1)) (n + (n - 1) * Nat.max 1 cb + Nat.min 1 n) yes.
Proof.
  destruct n as [|n]; [now apply sz_ret|]. intros wit st x s' Hr. rewrite seq_S, foldM_app in Hr. revert wit st x s' Hr.
  replace (Nat.max 1 cb - 1) with (cb - 1) by lia. replace (Nat.max 1 cb) with (S (cb - 1)) by lia. replace (S n - 1) with n by lia.
  eapply sz_step; [apply z_carry_fold| | | |].
  - apply Forall_forall. intros i Hi. apply in_seq in Hi. lia.
  - lia.
  - rewrite seq_length. lia.
  - rewrite seq_length. lia.
  - intros s1 _. rewrite seq_length. cbn [Nat.add foldM]. pose proof (z_carry_step a b (S n) mw base cb s1 n) as Z.
    rewrite (proj2 (Nat.ltb_ge n (S n - 1))) in Z by lia. stp ltac:(exact Z). ret.
Qed.
Definition both_max (a b : bignat) : Z := Z.max (max_word (bparams a)) (max_word (bparams b)).
Lemma z_carried a b : sz (equal_when_carried a b) 0
  (carried_aux (both_max a b) (limb_width (bparams a)) (length (limbs a)) (length (limbs b)))
  (carried_cons (both_max a b) (limb_width (bparams a)) (length (limbs a)) (length (limbs b))) yes.
Proof.
  unfold equal_when_carried. apply sz_lift_bind. intros w Hw. unfold width_agreement in Hw.
  destruct (_ =? _); [|discriminate]. injection Hw as <-. fold (both_max a b).
  unfold carried_aux, carried_cons, carry_width. set (w := limb_width (bparams a)). set (M := both_max a b).
  set (n := Nat.min _ _). stp ltac:(apply z_carries).
  stp ltac:(apply (sz_iterM _ 0 0 1); intros; apply sz_enforce).
  fin ltac:(apply (sz_iterM _ 0 0 1); intros; apply sz_enforce).
Qed.

Lemma update_len {A} k (f : A -> A) : forall l, length (update k f l) = length l.
Proof. intros l. revert k. induction l as [|x l IH]; intros [|k]; cbn; auto. Qed.
Lemma group_loop_len {A} (add : A -> Z -> A -> A) block g : forall xs i sh acc r, group_loop add block g i sh xs acc = Ok r -> length r = length acc.
Proof.
  induction xs as [|x xs IH]; intros i sh acc r H; cbn [group_loop] in H; [now injection H as <-|].
  destruct (i / g <? length acc); [|discriminate]. apply IH in H. now rewrite update_len in H.
Qed.
Lemma group_limbs_size b g r : group_limbs b g = Ok r -> length (limbs r) = n_groups (length (limbs b)) g /\
  max_word (bparams r) = (ones_at (limb_width (bparams b)) g * max_word (bparams b))%Z /\ limb_width (bparams r) = limb_width (bparams b) * g /\
  n_limbs (bparams r) = length (limbs r).
Proof.
  unfold group_limbs. destruct (group_count _ _) as [k|e|] eqn:Ek; cbn [rbind]; try discriminate.
  assert (Hk : k = n_groups (length (limbs b)) g).
  { unfold group_count in Ek. destruct (g =? 0); [discriminate|]. unfold n_groups. destruct (length (limbs b)); [destruct (_ || _); [discriminate|]|]; now injection Ek. }
  destruct (match limb_values b with Some _ => _ | None => _ end); cbn [rbind]; try discriminate.
  destruct (group_loop _ _ _ _ _ (limbs b) _) as [ls|e|] eqn:El; cbn [rbind]; try discriminate.
  intros H. injection H as <-. cbn. apply group_loop_len in El. rewrite repeat_length in El. rewrite <- Hk. auto.
Qed.
Lemma z_grouped a b : sz (equal_when_carried_regroup a b) 0
  (grouped_aux (both_max a b) (limb_width (bparams a)) (length (limbs a)) (length (limbs b)))
  (grouped_cons (both_max a b) (limb_width (bparams a)) (length (limbs a)) (length (limbs b))) yes.
Proof.
  unfold equal_when_carried_regroup. apply sz_lift_bind. intros w Hw. unfold width_agreement in Hw.
  destruct (Nat.eqb_spec (limb_width (bparams a)) (limb_width (bparams b))) as [Ew|]; [|discriminate]. injection Hw as <-. fold (both_max a b).
  set (w := limb_width (bparams a)) in *. set (M := both_max a b).
  apply sz_lift_bind. intros room Hroom. apply sz_lift_bind. intros g Hg.
  assert (Hg' : g = group_size M w /\ 1 <= w).
  { unfold group_size. unfold usub in Hroom. destruct (_ <=? _); [|discriminate]. injection Hroom as <-.
    destruct (Nat.eqb_spec w 0); [discriminate|]. injection Hg as <-. split; [reflexivity|lia]. }
  destruct Hg' as [-> Hw1]. clear Hg Hroom.
  apply sz_lift_bind. intros ga Ha. apply sz_lift_bind. intros gb Hb. apply sz_ns.
  apply group_limbs_size in Ha as (La & Ma & Wa & _). apply group_limbs_size in Hb as (Lb & Mb & Wb & _).
  pose proof (z_carried ga gb) as Z. unfold grouped_aux, grouped_cons. rewrite La, Lb, Wa in Z.
  replace (both_max ga gb) with (group_word M w) in Z; [exact Z|].
  unfold both_max. rewrite Ma, Mb, <- Ew. fold w. rewrite ones_at_max by exact Hw1. rewrite group_word_ones, ones_at_spec by exact Hw1. reflexivity.
Qed.

(** ** Products *)
Lemma z_range b n w : length (limbs b) = n -> limb_width (bparams b) = w -> sz (assert_well_formed b) 0 (range_aux n w) (range_cons n w) yes.
Proof.
  intros <- <-. eapply sz_last; [apply z_well_formed|auto..]. unfold range_cons. f_equal. lia.
Qed.
Lemma max_word_new w n : max_word (params_new w n) = full_word w.
Proof. cbn. unfold int_with_n_ones, full_word. now rewrite Z.shiftl_1_l. Qed.
Lemma agree_eq a b w : width_agreement a b = Ok w -> w = limb_width (bparams a) /\ limb_width (bparams b) = w.
Proof. unfold width_agreement. destruct (Nat.eqb_spec (limb_width (bparams a)) (limb_width (bparams b))); [|discriminate]. intros H. injection H as <-. auto. Qed.

Lemma z_verify_mult a b p : n_limbs (bparams a) = length (limbs a) -> n_limbs (bparams b) = length (limbs b) ->
  sz (verify_mult a b p) 0
    (check_aux (length (limbs a)) (max_word (bparams a)) (length (limbs b)) (max_word (bparams b)) (length (limbs p)) (max_word (bparams p)) (limb_width (bparams a)))
    (check_cons (length (limbs a)) (max_word (bparams a)) (length (limbs b)) (max_word (bparams b)) (length (limbs p)) (max_word (bparams p)) (limb_width (bparams a))) yes.
Proof.
  intros Na Nb. unfold verify_mult, check_aux, check_cons, product_word. apply sz_lift_bind. intros w1 H1. apply agree_eq in H1 as [-> Eb].
  apply sz_lift_bind. intros w2 H2. apply agree_eq in H2 as [-> Ep].
  eapply sz_step; [apply sz_ns, z_product|lia|cbn; lia|cbn; lia|]. cbn [to_poly p_coeffs]. intros pp Hpp.
  match goal with |- sz (ns _ (equal_when_carried_regroup ?l p)) _ _ _ _ => pose proof (z_grouped l p) as Z end.
  unfold both_max in Z. cbn [from_poly limbs bparams max_word limb_width] in Z. rewrite Hpp in Z. rewrite ?Na, ?Nb, ?Eb in *.
  fin ltac:(apply sz_ns, Z).
Qed.
Lemma z_mult a b : n_limbs (bparams a) = length (limbs a) -> n_limbs (bparams b) = length (limbs b) ->
  let n := length (limbs a) in let m := length (limbs b) in let w := limb_width (bparams a) in
  sz (mult a b) 0
    (n + m + range_aux (n + m) w + check_aux n (max_word (bparams a)) m (max_word (bparams b)) (n + m) (full_word w) w)
    (range_cons (n + m) w + check_cons n (max_word (bparams a)) m (max_word (bparams b)) (n + m) (full_word w) w)
    (fun p => length (limbs p) = n + m).
Proof.
  intros Na Nb n m w. unfold mult. apply sz_lift_bind. intros w1 H1. apply agree_eq in H1 as [-> Eb]. cbv zeta. rewrite Na, Nb, Eb. fold n m w. replace (m + n) with (n + m) by lia.
  stp ltac:(apply sz_ns, z_alloc_nat). destruct H as [Hl Hp].
  match goal with |- context [assert_well_formed ?y] => set (q := y) end.
  assert (Hq : length (limbs q) = n + m /\ limb_width (bparams q) = w /\ max_word (bparams q) = full_word w).
  { unfold q. destruct ((0 <? _) && _)%bool; cbn [set_min_bits with_params limbs bparams limb_width max_word]; rewrite Hl, Hp; cbn [params_new limb_width];
      rewrite <- (max_word_new w 0); split; auto; lia. }
  destruct Hq as (Q1 & Q2 & Q3). stp ltac:(apply sz_ns, (z_range q (n + m) w); auto).
  pose proof (z_verify_mult a b q Na Nb) as Z. rewrite Q1, Q3 in Z. fold n m w in Z. stp ltac:(apply sz_ns, Z). ret.
Qed.
Lemma z_divides a b : n_limbs (bparams a) = length (limbs a) -> n_limbs (bparams b) = length (limbs b) ->
  let n := length (limbs a) in let m := length (limbs b) in let w := limb_width (bparams a) in
  sz (divides a b) 0
    (m + range_aux m w + check_aux n (max_word (bparams a)) m (full_word w) m (max_word (bparams b)) w)
    (range_cons m w + check_cons n (max_word (bparams a)) m (full_word w) m (max_word (bparams b)) w) yes.
Proof.
  intros Na Nb n m w. unfold divides. apply sz_lift_bind. intros w1 H1. apply agree_eq in H1 as [-> Eb]. rewrite Nb. fold m. rewrite Eb. fold w.
  stp ltac:(apply sz_ns, z_alloc_nat). destruct H as [Hl Hp].
  stp ltac:(apply sz_ns, (z_range x m w); auto; now rewrite Hp).
  pose proof (z_verify_mult a x b Na) as Z. rewrite Hp, Hl in Z. specialize (Z eq_refl). rewrite max_word_new in Z. fold n m w in Z.
  fin ltac:(apply sz_ns, Z).
Qed.
Lemma rmapM_len {A B} (f : A -> res B) l r : rmapM f l = Ok r -> length r = length l.
Proof. apply rmapM_length. Qed.
Lemma add_size a b c : add a b = Ok c -> length (limbs c) = Nat.max (n_limbs (bparams a)) (n_limbs (bparams b)) /\
  max_word (bparams c) = (max_word (bparams a) + max_word (bparams b))%Z /\ limb_width (bparams c) = limb_width (bparams a).
Proof.
  unfold add. destruct (width_agreement a b); cbn [rbind]; try discriminate.
  destruct (rmapM (fun i => opt2 lc_add _ _) _) as [ls| |] eqn:El; cbn [rbind]; try discriminate.
  match goal with |- context [rbind ?x _] => destruct x end; cbn [rbind]; try discriminate.
  intros H. injection H as <-. cbn. apply rmapM_len in El. rewrite seq_length in El. auto.
Qed.
Lemma z_sub a b : n_limbs (bparams a) = length (limbs a) -> n_limbs (bparams b) = length (limbs b) ->
  let n := length (limbs a) in let m := length (limbs b) in let w := limb_width (bparams a) in
  let M := Z.max (max_word (bparams a)) (max_word (bparams b) + full_word w) in
  sz (sub a b) 0 (n + grouped_aux M w n (Nat.max m n)) (grouped_cons M w n (Nat.max m n)) (fun d => length (limbs d) = n).
Proof.
  intros Na Nb n m w M. unfold sub. rewrite Na. fold n w. stp ltac:(apply sz_ns, z_alloc_nat). destruct H as [Hl Hp].
  apply sz_lift_bind. intros sum Hs. apply add_size in Hs as (S1 & S2 & S3).
  pose proof (z_grouped a sum) as Z. unfold both_max in Z. rewrite S1, S2, Nb, Hp, max_word_new in Z.
  cbn [params_new n_limbs] in Z. fold n m w M in Z. stp ltac:(apply sz_ns, Z). ret.
Qed.
Lemma poly_sum_len a b : length (p_coeffs (poly_sum a b)) = Nat.max (length (p_coeffs a)) (length (p_coeffs b)).
Proof. unfold poly_sum. cbn. now rewrite map_length, seq_length. Qed.

Lemma z_assert_mod a b m r :
  let na := length (limbs a) in let nb := length (limbs b) in let nm := length (limbs m) in let nr := length (limbs r) in
  let w := limb_width (bparams a) in let q := na + nb in
  let M := Z.max (product_word na (max_word (bparams a)) nb (max_word (bparams b))) (right_word q nm (max_word (bparams m)) (max_word (bparams r)) w) in
  sz (assert_product_mod a b m r) 0
    (q + range_aux q w + (na + nb - 1) + (q + nm - 1) + grouped_aux M w (na + nb - 1) (right_len q nm nr))
    (range_cons q w + (na + nb - 1) + (q + nm - 1) + grouped_cons M w (na + nb - 1) (right_len q nm nr))
    (fun x => length (limbs x) = q).
Proof.
  intros na nb nm nr w q M. unfold assert_product_mod. apply sz_lift_bind; intros w1 _. apply sz_lift_bind; intros w2 _. apply sz_lift_bind; intros w3 _. fold w na nb q.
  stp ltac:(apply sz_ns, z_alloc_nat). destruct H as [Hl Hp].
  stp ltac:(apply sz_ns, (z_range x q w); auto; now rewrite Hp).
  eapply sz_step; [apply sz_ns, z_product|cbn [to_poly p_coeffs]; fold na nb; try fold q; lia..|]. cbn [to_poly p_coeffs]. fold na nb. intros lp Hlp.
  eapply sz_step; [apply sz_ns, z_product|cbn [to_poly p_coeffs]; rewrite ?Hl; fold nm; lia..|]. cbn [to_poly p_coeffs]. rewrite Hl. fold nm. intros rp Hrp.
  match goal with |- context [equal_when_carried_regroup ?l ?s] => pose proof (z_grouped l s) as Z end.
  unfold both_max in Z. cbn [from_poly limbs bparams max_word limb_width] in Z.
  rewrite poly_sum_len in Z. cbn [to_poly p_coeffs] in Z. fold nr in Z. rewrite Hlp, Hrp in Z.
  assert (L : left_max_word a b = product_word na (max_word (bparams a)) nb (max_word (bparams b))) by reflexivity.
  assert (R : right_max_word x m r = right_word q nm (max_word (bparams m)) (max_word (bparams r)) w)
    by (unfold right_max_word, right_word, product_word; now rewrite Hl, Hp, max_word_new).
  rewrite L, R in *. unfold right_len. fold M q in Z. fold q in Hlp. stp ltac:(apply sz_ns, Z). ret.
Qed.
Lemma q_limbs_pos n k w : 1 <= q_limbs n k w.
Proof. unfold q_limbs. generalize ((n - k - 1) / w). intros. lia. Qed.
Lemma quotient_limbs_eq n k w r : quotient_limbs n k w = Ok r -> r = q_limbs n k w.
Proof. unfold quotient_limbs, q_limbs. destruct (w =? 0); [discriminate|]. intros H. now injection H. Qed.
Lemma n_bits_eq b r : n_bits b = Ok r -> r = n_bits_of b.
Proof. unfold n_bits, n_bits_of. destruct (0 <? _); [|discriminate]. intros H. now injection H. Qed.

Lemma z_mult_mod a b m :
  let na := length (limbs a) in let nb := length (limbs b) in let nm := length (limbs m) in
  let w := limb_width (bparams a) in let q := q_limbs (n_bits_of a + n_bits_of b) (min_bits (bparams m)) w in
  let M := Z.max (product_word na (max_word (bparams a)) nb (max_word (bparams b))) (right_word q nm (max_word (bparams m)) (full_word w) w) in
  sz (mult_mod a b m) 0
    (q + nm + range_aux (q + nm) w + (na + nb - 1) + (q + nm - 1) + grouped_aux M w (na + nb - 1) (q + nm - 1))
    (range_cons (q + nm) w + (na + nb - 1) + (q + nm - 1) + grouped_cons M w (na + nb - 1) (q + nm - 1))
    (fun x => length (limbs (fst x)) = q /\ length (limbs (snd x)) = nm).
Proof.
  intros na nb nm w q M. unfold mult_mod. apply sz_lift_bind. intros w1 H1. apply agree_eq in H1 as [-> _]. fold w.
  apply sz_lift_bind. intros ba Ha. apply n_bits_eq in Ha as ->. apply sz_lift_bind. intros bb Hb. apply n_bits_eq in Hb as ->.
  apply sz_lift_bind. intros ql Hq. apply quotient_limbs_eq in Hq as ->. fold q. cbv zeta. fold nm.
  assert (R1 : range_aux (q + nm) w = range_aux q w + range_aux nm w) by (unfold range_aux; lia).
  assert (R2 : range_cons (q + nm) w = range_cons q w + range_cons nm w) by (unfold range_cons; lia). rewrite R1, R2.
  stp ltac:(apply sz_ns, z_alloc_nat). destruct H as [Hl Hp]. stp ltac:(apply sz_ns, (z_range x q w); auto; now rewrite Hp).
  stp ltac:(apply sz_ns, z_alloc_nat). destruct H0 as [Hl2 Hp2]. stp ltac:(apply sz_ns, (z_range x1 nm w); auto; now rewrite Hp2).
  eapply sz_step; [apply sz_ns, z_product|cbn [to_poly p_coeffs]; fold na nb; lia..|]. cbn [to_poly p_coeffs]. fold na nb. intros lp Hlp.
  eapply sz_step; [apply sz_ns, z_product|cbn [to_poly p_coeffs]; rewrite ?Hl; fold nm; lia..|]. cbn [to_poly p_coeffs]. rewrite Hl. fold nm. intros rp Hrp.
  match goal with |- context [equal_when_carried_regroup ?l ?s] => pose proof (z_grouped l s) as Z end.
  unfold both_max in Z. cbn [from_poly limbs bparams max_word limb_width] in Z.
  rewrite poly_sum_len in Z. cbn [to_poly p_coeffs] in Z. rewrite Hlp, Hrp, Hl2 in Z.
  replace (Nat.max (q + nm - 1) nm) with (q + nm - 1) in Z by (pose proof (q_limbs_pos _ _ _ : 1 <= q); clearbody q; lia).
  assert (L : left_max_word a b = product_word na (max_word (bparams a)) nb (max_word (bparams b))) by reflexivity.
  assert (R : right_max_word x m x1 = right_word q nm (max_word (bparams m)) (full_word w) w)
    by (unfold right_max_word, right_word, product_word; now rewrite Hl, Hp, Hp2, !max_word_new).
  rewrite L, R in *. fold M in Z. stp ltac:(apply sz_ns, Z). ret.
Qed.
Lemma z_red_mod a m :
  let na := length (limbs a) in let nm := length (limbs m) in
  let w := limb_width (bparams a) in let q := q_limbs (n_bits_of a) (min_bits (bparams m)) w in
  let M := Z.max (max_word (bparams a)) (right_word q nm (max_word (bparams m)) (full_word w) w) in
  sz (red_mod a m) 0
    (q + nm + range_aux (q + nm) w + (q + nm - 1) + grouped_aux M w na (q + nm - 1))
    (range_cons (q + nm) w + (q + nm - 1) + grouped_cons M w na (q + nm - 1))
    (fun x => length (limbs x) = nm).
Proof.
  intros na nm w q M. unfold red_mod. apply sz_lift_bind. intros w1 H1. apply agree_eq in H1 as [-> _]. fold w.
  apply sz_lift_bind. intros ba Ha. apply n_bits_eq in Ha as ->.
  apply sz_lift_bind. intros ql Hq. apply quotient_limbs_eq in Hq as ->. fold q. cbv zeta. fold nm.
  assert (R1 : range_aux (q + nm) w = range_aux q w + range_aux nm w) by (unfold range_aux; lia).
  assert (R2 : range_cons (q + nm) w = range_cons q w + range_cons nm w) by (unfold range_cons; lia). rewrite R1, R2.
  stp ltac:(apply sz_ns, z_alloc_nat). destruct H as [Hl Hp]. stp ltac:(apply sz_ns, (z_range x q w); auto; now rewrite Hp).
  stp ltac:(apply sz_ns, z_alloc_nat). destruct H0 as [Hl2 Hp2]. stp ltac:(apply sz_ns, (z_range x1 nm w); auto; now rewrite Hp2).
  eapply sz_step; [apply sz_ns, z_product|cbn [to_poly p_coeffs]; rewrite ?Hl; fold nm; lia..|]. cbn [to_poly p_coeffs]. rewrite Hl. fold nm. intros rp Hrp.
  match goal with |- context [equal_when_carried_regroup ?l ?s] => pose proof (z_grouped l s) as Z end.
  unfold both_max in Z. cbn [from_poly limbs bparams max_word limb_width] in Z.
  rewrite poly_sum_len in Z. cbn [to_poly p_coeffs] in Z. rewrite Hrp, Hl2 in Z.
  replace (Nat.max (q + nm - 1) nm) with (q + nm - 1) in Z by (pose proof (q_limbs_pos _ _ _ : 1 <= q); clearbody q; lia).
  assert (R : right_max_word x m x1 = right_word q nm (max_word (bparams m)) (full_word w) w)
    by (unfold right_max_word, right_word, product_word; now rewrite Hl, Hp, Hp2, !max_word_new).
  rewrite R in *. fold na w M in Z. stp ltac:(apply sz_ns, Z). ret.
Qed.

(** ** Selection *)
Lemma z_mux_wires s w0 w1 wo : length w1 = length w0 -> length wo = length w0 -> sz (mux_wires s w0 w1 wo) 0 0 (length w0) yes.
Proof.
  intros L1 L2. unfold mux_wires. eapply sz_last; [apply (sz_iterM _ 0 0 1)| | | |auto].
  - intros [i [[l0 l1] lo]] _. apply sz_enforce.
  - lia.
  - lia.
  - rewrite !combine_length, seq_length. lia.
Qed.
Lemma with_n_limbs_size b n r : n_limbs (bparams b) = length (limbs b) -> with_n_limbs b n = Ok r ->
  length (limbs r) = n /\ n_limbs (bparams r) = n /\ limb_width (bparams r) = limb_width (bparams b).
Proof.
  intros Hb. unfold with_n_limbs. destruct (Nat.ltb_spec n (n_limbs (bparams b))); [discriminate|].
  destruct (Nat.eqb_spec n (n_limbs (bparams b))); intros Hr; injection Hr as <-; cbn; [split; [congruence|auto]|].
  unfold pad_to. rewrite app_length, repeat_length. split; [lia|auto].
Qed.
Lemma z_mux s a b : n_limbs (bparams a) = length (limbs a) -> n_limbs (bparams b) = length (limbs b) ->
  let n := Nat.max (length (limbs a)) (length (limbs b)) in
  sz (mux s a b) 0 n n (fun x => length (limbs x) = n /\ bparams x = params_new (limb_width (bparams a)) n).
Proof.
  intros Na Nb n. unfold mux. rewrite Na, Nb. fold n. apply sz_lift_bind. intros a' Ha. apply sz_lift_bind. intros b' Hb.
  apply with_n_limbs_size in Ha as (A1 & A2 & A3); auto. apply with_n_limbs_size in Hb as (B1 & B2 & B3); auto.
  destruct (_ || _)%bool; [apply sz_fail|]. unfold gadget_alloc. cbn [limb_width n_limbs]. rewrite A2.
  stp ltac:(apply sz_ns, z_alloc_nat). destruct H as [Hl Hp].
  eapply sz_step; [apply z_mux_wires; congruence|rewrite ?A1; lia..|]. intros _ _. rewrite A1. ret. rewrite A3 in Hp. auto.
Qed.
Lemma z_mux_default s a b : n_limbs (bparams a) = length (limbs a) ->
  sz (mux_default s a b) 0 (length (limbs a)) (length (limbs a)) (fun x => length (limbs x) = length (limbs a)).
Proof.
  intros Na. unfold mux_default. destruct (Nat.eqb_spec (length (limbs a)) (length (limbs b))); [|apply sz_fail]. cbn [negb].
  unfold gadget_alloc. rewrite Na. stp ltac:(apply sz_ns, z_alloc_nat). destruct H as [Hl Hp].
  rewrite Hl, Nat.eqb_refl. cbn [negb]. eapply sz_step; [apply z_mux_wires; congruence|lia..|]. intros _ _. ret.
Qed.
Lemma z_mux_tree n : forall bits inputs, Forall (fun b => length (limbs b) = n /\ n_limbs (bparams b) = n) inputs ->
  sz (mux_tree bits inputs) 0 (n * (2 ^ length bits - 1)) (n * (2 ^ length bits - 1)) (fun x => length (limbs x) = n /\ n_limbs (bparams x) = n).
Proof.
  induction bits as [|bit bits IH]; intros inputs Hf.
  - cbn [mux_tree]. destruct inputs as [|b [|c inputs]]; [apply sz_fail| |apply sz_fail]. inversion Hf; subst. ret. cbn. lia. cbn; lia.
  - cbn [mux_tree]. destruct (negb _); [apply sz_fail|]. cbv zeta. set (h := Nat.div _ 2).
    assert (P : n * (2 ^ length (bit :: bits) - 1) = n * (2 ^ length bits - 1) + (n * (2 ^ length bits - 1) + n)).
    { cbn [length]. rewrite Nat.pow_succ_r'. pose proof (Nat.pow_nonzero 2 (length bits) ltac:(lia)). destruct (2 ^ length bits); [lia|]. nia. }
    rewrite P. assert (F : Forall (fun b => length (limbs b) = n /\ n_limbs (bparams b) = n) (firstn h inputs) /\ Forall (fun b => length (limbs b) = n /\ n_limbs (bparams b) = n) (skipn h inputs)).
    { rewrite <- Forall_app, firstn_skipn. exact Hf. }
    destruct F as [F1 F2].
    stp ltac:(apply sz_ns, IH; exact F1). stp ltac:(apply sz_ns, IH; exact F2).
    destruct H as [X1 X2], H0 as [Y1 Y2]. pose proof (z_mux bit x x0) as Z. cbv zeta in Z. rewrite X1, X2, Y1, Y2, Nat.max_id in Z.
    eapply sz_last; [apply sz_ns, Z; auto|lia..|]. intros x' (-> & ->). auto.
Qed.
Lemma z_switch s a b : n_limbs (bparams a) = length (limbs a) -> n_limbs (bparams b) = length (limbs b) ->
  let n := Nat.max (length (limbs a)) (length (limbs b)) in
  sz (switch s a b) 0 (2 * n) (2 * n) (fun x => length (limbs (snd x)) = n /\ bparams (snd x) = params_new (limb_width (bparams a)) n).
Proof.
  intros Na Nb n. unfold switch. pose proof (z_mux s a b Na Nb) as Z1. pose proof (z_mux (bit_not s) a b Na Nb) as Z2. fold n in Z1, Z2.
  stp ltac:(apply sz_ns, Z1). stp ltac:(apply sz_ns, Z2). ret.
Qed.
Lemma z_assert_equal a b : sz (assert_equal a b) 0 0 (length (limbs a)) yes.
Proof.
  unfold assert_equal. destruct (Nat.eqb_spec (length (limbs a)) (length (limbs b))); [|apply sz_fail]. cbn [negb].
  eapply sz_last; [apply (sz_iterM _ 0 0 1); intros; apply sz_enforce| | | |auto]; rewrite ?combine_length, ?seq_length; lia.
Qed.

(** ** Comparisons of field elements *)
Lemma z_less_than a b n : sz (less_than a b n) 0 6 6 (fun r => exists x, r = BIs x).
Proof. unfold less_than. do 2 stp ltac:(apply sz_unwrap, sz_ns, z_an_alloc). fin ltac:(apply sz_ns, z_equals). Qed.
Lemma z_leq a b n : sz (leq a b n) 0 6 6 (fun r => exists x, r = BIs x).
Proof. unfold leq. do 2 stp ltac:(apply sz_unwrap, sz_ns, z_an_alloc). fin ltac:(apply sz_ns, z_equals). Qed.
Lemma z_reverse a b c : sz (an_conditionally_reverse a b c) 0 2 2 yes.
Proof.
  unfold an_conditionally_reverse. stp ltac:(apply sz_ns, z_an_alloc). stp ltac:(apply sz_enforce). stp ltac:(apply sz_ns, z_an_alloc).
  stp ltac:(apply sz_enforce). ret.
Qed.
Lemma z_median_step m s p : sz (median_step m s p) 0 14 15 yes.
Proof.
  unfold median_step. destruct s as [o d], p as [i t]. stp ltac:(apply sz_unwrap, sz_ns, z_equals). stp ltac:(apply sz_unwrap, sz_ns, z_less_than).
  stp ltac:(apply sz_unwrap, sz_ns, z_an_alloc). apply sz_lift_bind. intros e _. stp ltac:(apply sz_unwrap, sz_ns, z_ab_alloc).
  stp ltac:(apply sz_unwrap, sz_ns, z_an_alloc). stp ltac:(apply sz_enforce). stp ltac:(apply sz_unwrap, sz_ns, z_an_add). ret.
Qed.
Lemma z_median ts m : sz (verify_median_timestamp ts m) 0 (15 * length ts + 21) (15 * length ts + 16) (fun r => exists x, r = BIs x).
Proof.
  unfold verify_median_timestamp. stp ltac:(apply sz_unwrap, sz_ns, z_an_alloc).
  eapply sz_step; [apply (sz_mapM _ 0 1 0 (fun _ => yes)); intros; apply sz_unwrap, sz_ns, z_an_alloc|rewrite comb_len; lia..|].
  intros fs Hf. apply F2_len in Hf. rewrite comb_len in *. stp ltac:(apply sz_unwrap, sz_ns, z_an_alloc).
  eapply sz_step; [apply (sz_foldM _ 0 14 15 yes); [auto|intros; apply z_median_step]|rewrite comb_len, Hf; lia..|].
  intros [o d] _. rewrite comb_len, Hf. stp ltac:(apply sz_unwrap, sz_ns, z_an_alloc). stp ltac:(apply sz_unwrap, sz_ns, z_less_than).
  stp ltac:(apply sz_unwrap, sz_ns, z_an_alloc). stp ltac:(apply sz_enforce). stp ltac:(apply sz_unwrap, sz_ns, z_reverse).
  match goal with |- context [let '(_, _) := ?x in _] => destruct x end. stp ltac:(apply sz_unwrap, sz_ns, z_an_alloc). stp ltac:(apply sz_unwrap, sz_ns, z_an_add). stp ltac:(apply sz_unwrap, sz_ns, z_an_alloc).
  fin ltac:(apply sz_ns, z_leq).
Qed.
Lemma z_min a b : n_limbs (bparams a) = length (limbs a) -> n_limbs (bparams b) = length (limbs b) ->
  let n := Nat.max (length (limbs a)) (length (limbs b)) in let w := limb_width (bparams a) in
  let M := Z.max (full_word w) (max_word (bparams b) + full_word w) in
  sz (bn_min a b) 0 (3 * n + 1 + grouped_aux M w n n) (2 * n + 1 + grouped_cons M w n n) yes.
Proof.
  intros Na Nb n w M. unfold bn_min. stp ltac:(apply sz_ns, z_bit_alloc).
  pose proof (z_switch x a b Na Nb) as Z. fold n w in Z. stp ltac:(apply sz_ns, Z). destruct x0 as [l g]. cbn [snd] in *. destruct H0 as [G1 G2].
  pose proof (z_sub g b) as Y. rewrite G1, G2 in Y. specialize (Y eq_refl Nb). cbv zeta in Y. rewrite max_word_new in Y. cbn [params_new limb_width] in Y.
  fold M in Y. replace (Nat.max (length (limbs b)) n) with n in Y by lia. stp ltac:(apply sz_ns, Y). ret.
Qed.
Lemma concat_size a b r : unwrap_res (concat a b) = Ok r -> length (limbs r) = length (limbs b) + length (limbs a) /\
  max_word (bparams r) = Z.max (max_word (bparams a)) (max_word (bparams b)) /\ limb_width (bparams r) = limb_width (bparams a) /\
  n_limbs (bparams r) = n_limbs (bparams a) + n_limbs (bparams b).
Proof.
  unfold concat. destruct (width_agreement a b) as [w| |] eqn:Ew; cbn [rbind unwrap_res]; try discriminate. apply agree_eq in Ew as [-> _].
  intros H. injection H as <-. cbn [limbs bparams max_word limb_width n_limbs]. rewrite app_length. auto.
Qed.
Lemma z_num_u nm w : sz (num_u nm w) 0 1 0 yes.
Proof. apply sz_unwrap, sz_ns, z_num_alloc. Qed.
Lemma z_an_u nm w : sz (an_u nm w) 0 1 0 yes.
Proof. apply sz_unwrap, sz_ns, z_an_alloc. Qed.
Lemma z_bignat_u nm n w k : sz (bignat_u nm n w k) 0 (k + k * w) (k * S w + 1) (fun b => length (limbs b) = k /\ bparams b = params_new w k).
Proof. apply sz_unwrap, sz_ns, z_from_num. Qed.
Lemma z_lt_u nm a b n : sz (lt_u nm a b n) 0 6 6 yes.
Proof. unfold lt_u. stp ltac:(apply sz_unwrap, sz_ns, z_less_than). eapply sz_last; [apply (sz_lift _ yes); auto|auto..]. Qed.
Lemma z_assert b : sz (assert b) 0 0 0 yes.
Proof. destruct b; [ret|apply sz_crash]. Qed.
Lemma n_bits_new w n b : bparams b = params_new w n -> n_bits_of b = w * (n - 1) + bigint_bits (full_word w).
Proof. intros P. unfold n_bits_of. now rewrite P, max_word_new. Qed.
Lemma z_calculate pt st : let M := Z.max (product_word 4 (full_word 64) 1 (full_word 64)) (right_word 5 1 (full_word 128) (full_word 64) 64) in
  sz (calculate_difficulty_update pt st) 0 (862 + grouped_aux M 64 4 5) (862 + grouped_cons M 64 4 5) (fun b => length (limbs b) = 5).
Proof.
  intros M. unfold calculate_difficulty_update.
  eapply sz_step; [apply z_bignat_u|lia..|]. intros b1 [L1 P1]. eapply sz_step; [apply z_bignat_u|lia..|]. intros b2 [L2 P2].
  do 2 stp ltac:(apply z_an_u). do 2 stp ltac:(apply z_lt_u). stp ltac:(apply z_assert). stp ltac:(apply z_num_u).
  eapply sz_step; [apply z_bignat_u|lia..|]. intros b3 [L3 P3].
  pose proof (z_mult_mod b2 b1 b3) as Z. cbv zeta in Z. rewrite (n_bits_new _ _ _ P1), (n_bits_new _ _ _ P2), L1, L2, L3, P1, P2, P3, !max_word_new in Z.
  cbn [params_new limb_width min_bits] in Z.
  change (q_limbs (64 * (4 - 1) + bigint_bits (full_word 64) + (64 * (1 - 1) + bigint_bits (full_word 64))) 0 64) with 5 in Z. fold M in Z. cbn [Nat.add Nat.sub] in Z.
  eapply sz_step; [apply sz_unwrap, sz_ns, Z|unfold range_aux, range_cons; lia..|]. intros [q r] [Q _]. cbn [fst] in Q. apply sz_end; auto; unfold range_aux, range_cons; lia.
Qed.
Lemma z_update a b c d t : let M := Z.max (product_word 4 (full_word 64) 2 (full_word 64)) (right_word 6 2 (full_word 64) (full_word 64) 64) in
  sz (verify_difficulty_update a b c d t) 0 (1325 + grouped_aux M 64 5 7) (1328 + grouped_cons M 64 5 7) yes.
Proof.
  intros M. unfold verify_difficulty_update. stp ltac:(apply z_num_u).
  eapply sz_step; [apply z_bignat_u|lia..|]. intros b1 [L1 P1]. do 4 stp ltac:(apply z_num_u).
  eapply sz_step; [apply z_bignat_u|lia..|]. intros b2 [L2 P2]. eapply sz_step; [apply z_bignat_u|lia..|]. intros b3 [L3 P3].
  apply sz_lift_bind. intros tg Ht. apply concat_size in Ht as (Lt & _).
  eapply sz_step; [apply z_bignat_u|lia..|]. intros b4 [L4 P4]. eapply sz_step; [apply z_bignat_u|lia..|]. intros b5 [L5 P5].
  apply sz_lift_bind. intros pt Hp. apply concat_size in Hp as (Lp & Mp & Wp & Np).
  do 3 stp ltac:(apply z_an_u). do 2 stp ltac:(apply z_lt_u). stp ltac:(apply z_assert). stp ltac:(apply z_num_u).
  eapply sz_step; [apply z_bignat_u|lia..|]. intros b6 [L6 P6].
  rewrite L2, L3 in Lt. rewrite L4, L5 in Lp. cbn [Nat.add] in Lt, Lp. rewrite P4, P5 in Mp, Np. rewrite P4 in Wp. rewrite !max_word_new, Z.max_id in Mp. cbn [params_new limb_width n_limbs] in Wp, Np.
  assert (Bp : n_bits_of pt = 64 * (4 - 1) + bigint_bits (full_word 64)) by (unfold n_bits_of; now rewrite Mp, Wp, Np).
  pose proof (z_mult_mod pt b1 b6) as Z. cbv zeta in Z. rewrite (n_bits_new _ _ _ P1), Bp, L1, L6, Lp, P1, P6, Wp, Mp, !max_word_new in Z.
  cbn [params_new limb_width min_bits] in Z.
  change (q_limbs (64 * (4 - 1) + bigint_bits (full_word 64) + (64 * (2 - 1) + bigint_bits (full_word 64))) 0 64) with 6 in Z. fold M in Z. cbn [Nat.add Nat.sub] in Z.
  eapply sz_step; [apply sz_unwrap, sz_ns, Z|unfold range_aux, range_cons; lia..|]. intros [q r] [Q _]. cbn [fst] in Q.
  pose proof (z_equal tg q) as Y. rewrite Lt, Q in Y. eapply sz_last; [apply sz_unwrap, sz_ns, Y|unfold range_aux, range_cons; lia..|auto].
Qed.
Lemma z_hash_check a b c d : sz (verify_current_hash a b c d) 0 22 20 yes.
Proof.
  unfold verify_current_hash. do 4 stp ltac:(apply z_an_u). eapply sz_step; [apply sz_unwrap, sz_ns, z_less_than|lia..|]. intros r1 [y1 ->].
  eapply sz_step; [apply sz_unwrap, sz_ns, z_equals|lia..|]. intros r2 [y2 ->]. eapply sz_step; [apply sz_unwrap, sz_ns, z_less_than|lia..|]. intros r3 [y3 ->].
  eapply sz_step; [apply sz_unwrap, sz_ns, z_and_bits|lia..|]. intros r4 [y4 ->]. fin ltac:(apply sz_ns, z_or_bits).
Qed.
End SizeG.
