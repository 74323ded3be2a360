(** Sizes of the circuits that hash, with the constraints of the real hash gadget. *)
From Coq Require Import ZArith NArith Bool String List Lia Permutation.
From Verif.Model Require Import Base Sha256 CS Bellpepper Util Poly Bignat Median Difficulty HeaderStep ShaGadget RealHash Fields F64.
From Verif.Spec Require Import Spec SpecF64 SpecSize.
From Verif.Proofs Require Import Wp F64P TopF64 SizeP SizeF64 ShaSize.
Import ListNotations.
Local Open Scope N_scope.

Definition eqs {A} (P : A -> Prop) (a k : N) : A -> N -> N -> Prop := fun x a' k' => P x /\ a' = a /\ k' = k.
Lemma q_sz {A} (m : prog A) a k P : sz m 0 a k P -> csz m (eqs P (N.of_nat a) (N.of_nat k)).
Proof. intros H. eapply csz_weak; [apply (csz_sz m 0%nat); [reflexivity|exact H]|]. intros x a' k' (-> & -> & HP). split; auto. Qed.
Lemma q_bind {A B} (m : prog A) (f : A -> prog B) P Q a k a1 k1 a2 k2 :
  csz m (eqs P a1 k1) -> (forall x, P x -> csz (f x) (eqs Q a2 k2)) -> a = a1 + a2 -> k = k1 + k2 -> csz (bind m f) (eqs Q a k).
Proof.
  intros H1 H2 -> ->. eapply csz_bind; [exact H1|]. intros x a' k' (HP & -> & ->). eapply csz_weak; [apply H2, HP|].
  intros y a' k' (HQ & -> & ->). split; auto.
Qed.
Lemma q_step {A B} (m : prog A) (f : A -> prog B) P Q a k a1 k1 :
  csz m (eqs P a1 k1) -> (forall x, P x -> csz (f x) (eqs Q (a - a1) (k - k1))) -> (a1 <=? a) = true -> (k1 <=? k) = true -> csz (bind m f) (eqs Q a k).
Proof. intros H1 H2 Ha Hk. apply N.leb_le in Ha, Hk. eapply q_bind; [exact H1|exact H2|lia|lia]. Qed.
Lemma q_conv {A} (m : prog A) (P Q : A -> Prop) a k a' k' : csz m (eqs P a k) -> a = a' -> k = k' -> (forall x, P x -> Q x) -> csz m (eqs Q a' k').
Proof. intros H -> -> HQ. eapply csz_weak; [exact H|]. intros x ? ? (HP & -> & ->). split; auto. Qed.
Lemma q_ret {A} (x : A) (P : A -> Prop) : P x -> csz (Ret x) (eqs P 0 0).
Proof. intros H. apply csz_ret. split; auto. Qed.
Lemma q_lift {A} (r : res A) (P : A -> Prop) : (forall x, r = Ok x -> P x) -> csz (lift r) (eqs P 0 0).
Proof. intros H. apply (q_sz _ 0 0). apply sz_lift, H. Qed.
Lemma q_lift' {A B} (r : res A) (f : A -> prog B) Q a k : (forall x, r = Ok x -> csz (f x) (eqs Q a k)) -> csz (bind (lift r) f) (eqs Q a k).
Proof. intros H. eapply (q_bind _ _ (fun x => r = Ok x)); [apply q_lift; auto|exact H|reflexivity|reflexivity]. Qed.
Lemma q_ns {A} nm (m : prog A) P a k : csz m (eqs P a k) -> csz (ns nm m) (eqs P a k).
Proof. apply csz_ns. Qed.
Lemma csz_unwrap {A} (m : prog A) P : csz m P -> csz (unwrap_prog m) P.
Proof.
  intros H wit s x s' Hr. apply H with (wit := wit). clear H. revert s Hr.
  induction m as [y|e| |i nm w k IH|nm c k IH|nm k IH|k IH]; intros s Hr; cbn [unwrap_prog run] in *; try exact Hr; try discriminate; auto.
  destruct wit; [destruct w as [z|e|]|]; try discriminate; auto.
Qed.
Lemma q_true {A} (m : prog A) a k P : csz m (eqs P a k) -> csz m (fun _ a' k' => a' = a /\ k' = k).
Proof. intros H. eapply csz_weak; [exact H|]. intros x a' k' (_ & H1 & H2). auto. Qed.
Lemma q_has {A} (m : prog A) a k : has_size m 0 a k -> csz m (eqs (fun _ => True) (N.of_nat a) (N.of_nat k)).
Proof.
  intros H wit s x s' Hr. destruct (H wit s x s' Hr) as (H1 & H2 & H3). exists (N.of_nat a), (N.of_nat k).
  split; [lia|]. split; [lia|]. split; [lia|]. split; auto.
Qed.
Lemma q_iter {A} (f : A -> prog unit) a k : forall l, (forall x, In x l -> csz (f x) (eqs (fun _ => True) a k)) ->
  csz (iterM f l) (eqs (fun _ => True) (N.of_nat (List.length l) * a) (N.of_nat (List.length l) * k)).
Proof.
  induction l as [|x l IH]; intro H; cbn [iterM]; [apply q_ret; auto|].
  eapply q_bind; [apply H; left; reflexivity|intros ? _; apply IH; intros y Hy; apply H; right; exact Hy|..]; cbn [List.length]; lia.
Qed.

Section Step.
Context {E : Env}.
Lemma q_word w : csz (u64_into_boolean_vec_le w) (eqs (fun l => wires l /\ List.length l = 64%nat) 64 64).
Proof.
  unfold u64_into_boolean_vec_le.
  assert (K : forall n i, csz (mapM (fun i => let! b := ns (Nmi "bit " i "") (ab_alloc (Some (Z.testbit w (Z.of_nat i)))) in Ret (BIs b)) (seq i n))
    (eqs (fun l => wires l /\ List.length l = n) (N.of_nat n) (N.of_nat n))); [|apply (K 64%nat)].
  induction n as [|n IH]; intro i; cbn [seq mapM]; [apply q_ret; split; [constructor|reflexivity]|].
  eapply (q_bind _ _ (fun b => fm b = None) _ _ _ 1 1); [|intros b Hb; eapply q_bind; [apply IH|intros l [Hl Hn]; apply q_ret|reflexivity|reflexivity]|lia|lia].
  - eapply q_bind; [apply q_ns; eapply csz_weak; [apply c_ab_alloc|intros x a k [Ha Hk]; split; [exact I|split; [exact Ha|exact Hk]]]|intros b _; apply q_ret; reflexivity|reflexivity|reflexivity].
  - split; [constructor; assumption|cbn; congruence].
Qed.
Lemma q_words pre ws : csz (words_to_bits pre ws) (eqs (fun l => wires l /\ List.length l = (64 * List.length ws)%nat) (64 * N.of_nat (List.length ws)) (64 * N.of_nat (List.length ws))).
Proof.
  unfold words_to_bits.
  assert (K : forall i, csz (mapM (fun p => let! bs := unwrap_prog (ns (Nmi pre (fst p) "") (u64_into_boolean_vec_le (snd p))) in Ret (rev bs))
    (combine (seq i (List.length ws)) ws)) (eqs (fun l => wires (List.concat l) /\ List.length (List.concat l) = (64 * List.length ws)%nat) (64 * N.of_nat (List.length ws)) (64 * N.of_nat (List.length ws)))).
  { induction ws as [|w ws IH]; intro i; cbn [List.length seq combine mapM]; [apply q_ret; split; [constructor|reflexivity]|].
    eapply (q_bind _ _ (fun l => wires l /\ List.length l = 64%nat)); [|intros l [Hl Hn]; eapply q_bind; [apply IH|intros ls [Hls Hns]; apply q_ret|reflexivity|reflexivity]|..].
    - eapply q_bind; [apply csz_unwrap, q_ns, q_word|intros l [Hl Hn]; apply q_ret|reflexivity|reflexivity].
      split; [apply Forall_rev, Hl|rewrite rev_length; exact Hn].
    - cbn [List.concat]. split; [apply Forall_app; split; assumption|rewrite app_length; lia].
    - lia.
    - lia. }
  eapply q_bind; [apply K|intros l H; apply q_ret; exact H|lia|lia].
Qed.

Hypothesis HC : CAPACITY = 254%nat.
Lemma q_sha_640 l : wires l /\ List.length l = 640%nat -> csz (sha256_r1cs l) (eqs (fun r => wires r /\ List.length r = 256%nat) 51140 51192).
Proof. intros [H1 H2]. apply z_sha_640; assumption. Qed.
Lemma q_sha_256 l : wires l /\ List.length l = 256%nat -> csz (sha256_r1cs l) (eqs (fun r => wires r /\ List.length r = 256%nat) 25218 25244).
Proof. intros [H1 H2]. apply z_sha_256; assumption. Qed.

Lemma q_equal_ignored nm a b : fm a = None -> fm b = None ->
  csz (ignore_err (ns nm (bool_enforce_equal a b))) (eqs (fun _ => True) 0 1).
Proof.
  intros Ha Hb wit s x s' Hr. exists 0, 1.
  destruct a as [a|a|?]; [| |discriminate Ha]; (destruct b as [b|b|?]; [| |discriminate Hb]);
    cbn -[lc_sub bool_lc] in Hr; injection Hr as <- <-; cbn -[lc_sub bool_lc]; (split; [reflexivity|]; split; [lia|]; split; [rewrite ?app_length; cbn [List.length]; lia|]; split; [exact I|split; reflexivity]).
Qed.
Lemma q_check_prev block hash : List.length block = 10%nat -> List.length hash = 4%nat ->
  csz (check_prev_hash_r1cs block hash) (eqs (fun _ => True) 77254 77588).
Proof.
  intros HB HH. unfold check_prev_hash_r1cs, check_prev_hash_by.
  eapply q_step; [apply q_words|intros hv [Wh Lh]|rewrite HH; reflexivity|rewrite HH; reflexivity].
  eapply q_step; [apply q_words|intros pv Hp; rewrite HB in Hp|rewrite HB, HH; reflexivity|rewrite HB, HH; reflexivity].
  eapply q_step; [apply csz_unwrap, q_ns, q_sha_640, Hp|intros o1 H1|rewrite HB, HH; reflexivity|rewrite HB, HH; reflexivity].
  eapply q_step; [apply csz_unwrap, q_ns, q_sha_256, H1|intros o2 [W2 L2]|rewrite HB, HH; reflexivity|rewrite HB, HH; reflexivity].
  rewrite HH in Lh. eapply q_conv; [apply (q_iter _ 0 1)|..].
  - intros [i [a b]] Hi. apply in_combine_r in Hi. cbn [fst snd].
    pose proof (in_combine_l _ _ _ _ Hi) as Ia. pose proof (in_combine_r _ _ _ _ Hi) as Ib.
    apply q_equal_ignored; [exact (proj1 (Forall_forall _ _) Wh _ Ia)|exact (proj1 (Forall_forall _ _) W2 _ Ib)].
  - rewrite HB, HH, ?combine_length, ?seq_length, ?combine_length, ?L2, ?Lh; reflexivity.
  - rewrite HB, HH, ?combine_length, ?seq_length, ?combine_length, ?L2, ?Lh; reflexivity.
  - auto.
Qed.

(** The stages of the step. *)
Ltac bnd := eapply q_step; [|intros ? ?|..].
Ltac lft := apply q_lift'; intros ? ?.
Lemma q_assert b : csz (assert_true b) (eqs (fun _ => True) 0 0).
Proof. unfold assert_true. lft. apply (q_sz _ 0 0). eapply sz_weak; [apply z_assert|auto]. Qed.
Lemma q_an_u nm w : csz (an_u nm w) (eqs (fun _ => True) 1 0).
Proof. apply (q_sz _ 1 0). eapply sz_weak; [apply z_an_u|auto]. Qed.
Lemma q_less nm a b n : csz (unwrap_prog (ns nm (less_than a b n))) (eqs (fun _ => True) 6 6).
Proof. apply csz_unwrap, q_ns. apply (q_sz _ 6 6). eapply sz_weak; [apply z_less_than|auto]. Qed.
Lemma q_enforce nm a b c : csz (enforce nm a b c) (eqs (fun _ => True) 0 1).
Proof. apply (q_sz _ 0 1). apply sz_enforce. Qed.
Lemma rmapM_length {A B} (f : A -> res B) l r : rmapM f l = Ok r -> List.length r = List.length l.
Proof. apply rmapM_len. Qed.
Lemma q_stage_prev h z : csz (stage_prev_hash h z) (eqs (fun _ => True) 261 262).
Proof.
  unfold stage_prev_hash. apply q_lift'. intros ws HW. apply rmapM_length in HW. rewrite seq_length in HW.
  eapply q_step; [apply q_words|intros bs _|rewrite HW; reflexivity|rewrite HW; reflexivity]. rewrite HW.
  eapply q_step; [apply q_an_u|intros ph _|reflexivity|reflexivity]. lft.
  eapply q_step; [apply csz_unwrap, q_ns; apply (q_sz _ 4 6); eapply sz_weak; [apply z_equals|intros ? ?; exact I]|intros r _|reflexivity|reflexivity].
  eapply q_step; [apply q_assert|intros _ _|reflexivity|reflexivity]. apply q_ret. exact I.
Qed.
Lemma q_stage_pow h : List.length h = 10%nat -> csz (stage_pow_r1cs h) (eqs (fun _ => True) 77006 77082).
Proof.
  intros HH. unfold stage_pow_r1cs, stage_pow_by. do 3 lft.
  eapply q_step; [apply q_an_u|intros t _|reflexivity|reflexivity].
  eapply q_step; [apply q_words|intros pv Hp; rewrite HH in Hp|rewrite HH; reflexivity|rewrite HH; reflexivity]. rewrite HH.
  eapply q_step; [apply csz_unwrap, q_ns, q_sha_640, Hp|intros o1 W1|reflexivity|reflexivity].
  eapply q_step; [apply csz_unwrap, q_ns, q_sha_256, W1|intros o2 [W2 L2]|reflexivity|reflexivity].
  eapply q_step; [apply q_an_u|intros c _|reflexivity|reflexivity].
  eapply q_step; [apply q_less|intros r _|reflexivity|reflexivity].
  eapply q_step; [apply q_assert|intros _ _|reflexivity|reflexivity]. apply q_ret. exact I.
Qed.
Lemma insert_len x : forall l, List.length (insert x l) = S (List.length l).
Proof. induction l as [|y l IH]; cbn [insert]; [reflexivity|]. destruct (_ : bool); cbn [List.length]; [reflexivity|rewrite IH; reflexivity]. Qed.
Lemma sort_len l : List.length (sort l) = List.length l.
Proof. induction l as [|x l IH]; [reflexivity|]. cbn [sort fold_right]. fold (sort l). rewrite insert_len, IH. reflexivity. Qed.
Lemma q_stage_time h z : csz (stage_time h z) (eqs (fun _ => True) 194 187).
Proof.
  unfold stage_time. apply q_lift'. intros ts HT. apply rmapM_length in HT. rewrite seq_length in HT.
  apply q_lift'. intros [m ts'] HM. assert (L : List.length ts' = 11%nat).
  { unfold compute_median_timestamp in HM. cbv zeta in HM. destruct (idx _ _) as [y| |]; cbn [rbind] in HM; try discriminate. injection HM as _ <-. rewrite sort_len. exact HT. }
  pose proof (z_median ts' m) as Z. rewrite L in Z.
  eapply q_step; [apply csz_unwrap, q_ns; apply (q_sz _ _ _ _ Z)|intros r _|reflexivity|reflexivity].
  eapply q_step; [apply q_assert|intros _ _|reflexivity|reflexivity]. do 3 lft.
  eapply q_step; [apply q_an_u|intros c _|reflexivity|reflexivity].
  eapply q_step; [apply q_an_u|intros c' _|reflexivity|reflexivity].
  eapply q_step; [apply q_less|intros r' _|reflexivity|reflexivity].
  eapply q_step; [apply q_assert|intros _ _|reflexivity|reflexivity]. apply q_ret. exact I.
Qed.
Lemma q_stage_work t : csz (stage_work t) (eqs (fun _ => True) 2 1).
Proof.
  unfold stage_work.
  eapply q_step; [apply q_an_u|intros c _|reflexivity|reflexivity].
  eapply q_step; [apply q_an_u|intros c' _|reflexivity|reflexivity].
  eapply q_step; [apply q_enforce|intros _ _|reflexivity|reflexivity]. apply q_ret. exact I.
Qed.
End Step.

(** ** Statements in terms of the API *)
Lemma wires_of l : Forall (fun b => forall c, b <> BConst c) l -> wires l.
Proof. apply Forall_impl. intros [b|b|c] H; try reflexivity. exfalso. apply (H c). reflexivity. Qed.
Lemma q_final {A} (m : prog A) P a k : csz m (eqs P a k) -> has_size m 0 (N.to_nat a) (N.to_nat k).
Proof. intros H. apply csz_has. eapply q_true, H. Qed.
Lemma top_size_compress (E : Env) ins : CAPACITY = 254%nat -> Forall (fun b => forall c, b <> BConst c) ins -> List.length ins = 512%nat ->
  has_size (sha_compress ins (map u_constant H0)) 0 (N.to_nat 25814) (N.to_nat 25840).
Proof. intros HC HW HL. apply csz_has, z_compress; auto using wires_of. Qed.
Lemma top_size_sha_640 (E : Env) ins : CAPACITY = 254%nat -> Forall (fun b => forall c, b <> BConst c) ins -> List.length ins = 640%nat ->
  has_size (sha256_r1cs ins) 0 (N.to_nat 51140) (N.to_nat 51192).
Proof. intros HC HW HL. eapply q_final, q_sha_640; auto using wires_of. Qed.
Lemma top_size_sha_256 (E : Env) ins : CAPACITY = 254%nat -> Forall (fun b => forall c, b <> BConst c) ins -> List.length ins = 256%nat ->
  has_size (sha256_r1cs ins) 0 (N.to_nat 25218) (N.to_nat 25244).
Proof. intros HC HW HL. eapply q_final, q_sha_256; auto using wires_of. Qed.
Lemma top_size_prev (E : Env) block hash : CAPACITY = 254%nat -> List.length block = 10%nat -> List.length hash = 4%nat ->
  has_size (check_prev_hash_r1cs block hash) 0 (N.to_nat 77254) (N.to_nat 77588).
Proof. intros. eapply q_final, q_check_prev; assumption. Qed.
Lemma top_size_stage_prev (E : Env) h z : has_size (stage_prev_hash h z) 0 261 262.
Proof. apply (q_final _ _ _ _ (q_stage_prev h z)). Qed.
Lemma top_size_stage_pow (E : Env) h : CAPACITY = 254%nat -> List.length h = 10%nat ->
  has_size (stage_pow_r1cs h) 0 (N.to_nat 77006) (N.to_nat 77082).
Proof. intros. eapply q_final, q_stage_pow; assumption. Qed.
Lemma top_size_stage_time (E : Env) h z : has_size (stage_time h z) 0 194 187.
Proof. apply (q_final _ _ _ _ (q_stage_time h z)). Qed.
Lemma top_size_stage_work (E : Env) t : has_size (stage_work t) 0 2 1.
Proof. apply (q_final _ _ _ _ (q_stage_work t)). Qed.
