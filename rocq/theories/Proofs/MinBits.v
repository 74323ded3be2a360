(** enforce_full_bits and enforce_min_bits. *)
From Coq Require Import ZArith Znumtheory Bool List Lia Setoid Morphisms ZifyBool ZifyNat.
From Verif.Model Require Import Base CS Bellpepper Util Poly Bignat.
From Verif.Spec Require Import Spec.
From Verif.Proofs Require Import Field Arith Convert Limbs Wp Lc BitNum PolyP BoolP BignatEq BignatAlloc Group Carry Regroup Mult MultC TopBits TopPoly TopBignat1 PureOps TopPure Owp.
Import ListNotations.
Local Open Scope Z_scope.

Lemma testbit_ge v k : 0 <= v -> 0 <= k -> 2 ^ k <= v <-> exists i, k <= i /\ Z.testbit v i = true.
Proof.
  intros Hv Hk. split.
  - intros H. exists (Z.log2 v). split.
    + rewrite <- (Z.log2_pow2 k) by auto. now apply Z.log2_le_mono.
    + apply Z.bit_log2. pose proof (Z.pow_pos_nonneg 2 k). lia.
  - intros (i & Hi & Ht). destruct (Z.le_gt_cases (2 ^ k) v) as [|Hl]; auto.
    rewrite Z.bits_above_log2 in Ht; [discriminate|auto|].
    destruct (Z.eq_dec v 0) as [->|]; [cbn; destruct (Z.eq_dec i 0); [subst|lia]; assert (k = 0) by lia; subst; rewrite Z.testbit_0_l in Ht; discriminate|].
    apply Z.log2_lt_pow2; [lia|]. pose proof (Z.pow_le_mono_r 2 k i). lia.
Qed.

Lemma bits_value_nth bs k : 2 ^ Z.of_nat k <= bits_value bs <-> exists i, (k <= i)%nat /\ nth i bs false = true.
Proof.
  assert (HT : forall bs i, Z.testbit (bits_value bs) (Z.of_nat i) = nth i bs false).
  { clear. induction bs as [|b bs IH]; intros i.
    - rewrite Z.testbit_0_l. now destruct i.
    - unfold bits_value in *. cbn [map value_of]. rewrite Z.add_comm. destruct i.
      + change (Z.of_nat 0) with 0. rewrite Z.testbit_0_r. reflexivity.
      + rewrite Nat2Z.inj_succ, Z.testbit_succ_r by lia. apply IH. }
  pose proof (bits_value_bound bs). rewrite testbit_ge by lia. split.
  - intros (i & Hi & Ht). exists (Z.to_nat i). split; [lia|]. rewrite <- HT, Z2Nat.id by lia. exact Ht.
  - intros (i & Hi & Ht). exists (Z.of_nat i). split; [lia|]. now rewrite HT.
Qed.

Lemma app_inj_len {A} (a b c d : list A) : length a = length c -> a ++ b = c ++ d -> a = c /\ b = d.
Proof.
  revert c. induction a as [|x a IH]; intros [|y c] HL H; cbn [length app] in *; try discriminate; auto.
  injection H as -> H. injection HL as HL. destruct (IH c HL H) as [-> ->]. auto.
Qed.

Section MinBits.
Context {E : Env} {W : Wf E}.

Lemma into_bits_lc bv bits : bv_into_bits bv = Ok bits -> map b_lc bits = bv_bits bv.
Proof.
  unfold bv_into_bits. destruct (bv_vals bv) as [vs|].
  - intros H. apply rmapM_Forall2 in H.
    replace (bv_bits bv) with (map snd (combine (seq 0 (length (bv_bits bv))) (bv_bits bv))).
    2:{ clear. generalize 0%nat. induction (bv_bits bv) as [|l ls IH]; intros k; cbn [length seq combine map snd]; [reflexivity|]. f_equal. apply IH. }
    induction H as [|p b ps bs H _ IH]; cbn [map]; f_equal; auto.
    apply rbind_ok in H. destruct H as (v & _ & H). now injection H as <-.
  - intros H. injection H as <-. rewrite map_map. apply map_id.
Qed.
Lemma into_bits_ok bv vs : bv_vals bv = Some vs -> length vs = length (bv_bits bv) ->
  exists bits, bv_into_bits bv = Ok bits /\ map b_lc bits = bv_bits bv /\ map b_val bits = map Some vs.
Proof.
  intros Hv HL.
  assert (H : bv_into_bits bv = Ok (map (fun i => mkBit (nth i (bv_bits bv) lc_zero) (Some (nth i vs false))) (seq 0 (length (bv_bits bv))))).
  { unfold bv_into_bits. rewrite Hv, (combine_seq_map _ lc_zero).
    rewrite <- (map_map (fun i => (i, nth i (bv_bits bv) lc_zero)) (fun p => mkBit (snd p) (Some (nth (fst p) vs false)))).
    apply rmapM_ok. intros p Hp. apply in_map_iff in Hp. destruct Hp as (i & <- & Hi). apply in_seq in Hi.
    cbn [fst snd]. unfold idx. rewrite (nth_error_nth' vs false) by lia. reflexivity. }
  eexists. split; [exact H|]. split; [now apply into_bits_lc|].
  rewrite map_map. cbn [b_val]. rewrite <- HL, <- (map_map (fun i => nth i vs false) Some), map_nth_seq. reflexivity.
Qed.

Lemma vec_pop_inv {A} (l : list A) x r : vec_pop l = Some (x, r) -> l = r ++ [x].
Proof.
  unfold vec_pop. destruct (rev l) eqn:Er; intros H; [discriminate|]. injection H as <- <-.
  rewrite <- (rev_involutive l), Er. reflexivity.
Qed.

(** ** enforce_full_bits *)
Section Rho.
Context (rho : assignment) (one : rho ONE = 1).

Lemma enforce_full_bits_swp md b :
  swp md rho (enforce_full_bits b) (fun c => bparams c = mkParams (limb_width (bparams b) * n_limbs (bparams b))
     (max_word (bparams b)) (limb_width (bparams b)) (n_limbs (bparams b)) /\ limbs c = limbs b /\
    limb_values c = limb_values b /\ value c = value b /\ (1 <= length (limbs b))%nat /\ (1 <= limb_width (bparams b))%nat /\
    ((limb_width (bparams b) < NUM_BITS)%nat ->
    2 ^ Z.of_nat (limb_width (bparams b) * length (limbs b) - 1) <= int_of rho b)).
Proof.
  unfold enforce_full_bits. sstep. sstep. intros v _. sstep. sstep. intros [lc rest] Hp.
  destruct (vec_pop (limbs b)) as [[l1 r1]|] eqn:Hl; [|discriminate]. injection Hp as <- <-.
  apply vec_pop_inv in Hl. sstep. sstep.
  eapply swp_mono; [apply num_decompose_swp; auto|]. cbv beta. intros bv (bs & H1 & [H2 H2'] & H3 & _).
  sstep. sstep. intros bits Hb. apply into_bits_lc in Hb. sstep. sstep. intros [last init] Hq.
  destruct (vec_pop bits) as [[x y]|] eqn:Hpb; [|discriminate]. injection Hq as <- <-. apply vec_pop_inv in Hpb.
  sstep. sstep. eapply swp_mono; [apply bit_constrain_swp; auto|]. cbv beta. intros _ Hw. sstep.
  cbn [n_lc] in H3. unfold set_min_bits, with_params. cbn [bparams limbs limb_values value].
  split; [reflexivity|]. split; auto. split; auto. split; auto.
  assert (Hlen : length bs = S (length y)).
  { pose proof (Forall2_length _ _ _ H2') as HL. rewrite <- Hb, map_length, Hpb, app_length in HL. cbn [length] in HL. lia. }
  split; [rewrite Hl, app_length; simpl; lia|]. split; [lia|]. intros Hn.
  assert (Hlast : nth (length y) bs false = true).
  { rewrite <- Hb, Hpb, map_app in H2'. cbn [map] in H2'. apply Forall2_app_inv_l in H2'.
    destruct H2' as (b1 & b2 & F1 & F2 & ->). pose proof (Forall2_length _ _ _ F1) as HL. rewrite map_length in HL.
    inversion F2 as [|? z ? ? F3 F4]; subst. inversion F4; subst. rewrite app_nth2, <- HL, Nat.sub_diag by lia. cbn [nth].
    apply b2z_eqp_inj. unfold wire_bit in *. now rewrite <- F3, Hw. }
  set (w := limb_width (bparams b)) in *.
  assert (Hv : 2 ^ Z.of_nat (w - 1) <= feval rho l1).
  { rewrite (bits_unique (feval rho l1) bs w); auto; [|apply fmk_canon|now rewrite eqp_feval].
    apply bits_value_nth. exists (length y). split; auto. lia. }
  unfold int_of. fold w. rewrite Hl. unfold wires. rewrite map_app, value_of_app, app_length, map_length. cbn [map value_of length].
  pose proof (wires_nonneg rho r1) as HN. apply (value_of_nonneg (2 ^ Z.of_nat w)) in HN; [|apply Z.lt_le_incl, pow2_pos].
  unfold wires in HN. replace (w * (length r1 + 1) - 1)%nat with (w * length r1 + (w - 1))%nat by lia.
  rewrite pow2_add, pow2_mul. pose proof (Z.pow_pos_nonneg (2 ^ Z.of_nat w) (Z.of_nat (length r1)) (pow2_pos w) (Zle_0_nat _)). nia.
Qed.

Definition ones_in (bs : list bool) : Z := fold_right (fun b x => Z.b2z b + x) 0 bs.
Lemma ones_in_range bs : 0 <= ones_in bs <= Z.of_nat (length bs).
Proof. induction bs as [|[] bs IH]; cbn [ones_in fold_right length Z.b2z]; [lia| |]; fold (ones_in bs); lia. Qed.
Lemma ones_in_pos bs : 0 < ones_in bs <-> exists i, nth i bs false = true.
Proof.
  induction bs as [|b bs IH].
  - cbn. split; [lia|]. intros [[|i] H]; discriminate.
  - cbn [ones_in fold_right]. fold (ones_in bs). pose proof (ones_in_range bs). destruct b; cbn [Z.b2z].
    + split; [|lia]. intros _. exists 0%nat. reflexivity.
    + rewrite Z.add_0_l, IH. split; intros [i Hi].
      * now exists (S i).
      * destruct i; [discriminate|]. now exists i.
Qed.
Lemma upper_ones bs k : 0 < ones_in (skipn k bs) <-> 2 ^ Z.of_nat k <= bits_value bs.
Proof.
  rewrite ones_in_pos, bits_value_nth. split.
  - intros [i Hi]. rewrite nth_skipn' in Hi. exists (k + i)%nat. split; [lia|auto].
  - intros (i & H1 & H2). exists (i - k)%nat. rewrite nth_skipn'. now replace (k + (i - k))%nat with i by lia.
Qed.
Lemma sum_bits_eval bits bs : wire_bits rho (map b_lc bits) bs -> eqp (lc_eval rho (sum_bits bits)) (ones_in bs).
Proof.
  revert bs. induction bits as [|b bits IH]; intros bs H; inversion H; subst; [reflexivity|].
  change (sum_bits (b :: bits)) with (lc_add (b_lc b) (sum_bits bits)). lcs.
  cbn [ones_in fold_right]. fold (ones_in l'). rewrite (IH l') by auto. unfold wire_bit in *. match goal with X : eqp (lc_eval rho (b_lc b)) _ |- _ => now rewrite X end.
Qed.
Lemma count_bits_ok bits bs : map b_val bits = map Some bs -> forall acc, canon acc ->
  exists x, count_bits bits acc = Ok x /\ canon x /\ eqp x (acc + ones_in bs).
Proof.
  revert bs. induction bits as [|b bits IH]; intros [|v bs] H acc Hc; try discriminate.
  - exists acc. split; auto. split; auto. cbn. now rewrite Z.add_0_r.
  - cbn [map] in H. injection H as H1 H2. cbn [count_bits]. rewrite H1. cbn [grab rbind].
    assert (Hc' : canon (if v then fadd acc fone else acc)) by (destruct v; auto; apply fmk_canon).
    destruct (IH bs H2 _ Hc') as (x & H3 & H4 & H5). exists x. split; auto. split; auto. rewrite H5.
    cbn [ones_in fold_right]. fold (ones_in bs). destruct v; cbn [Z.b2z]; [feq; feq; ering|ering].
Qed.

Lemma Forall2_skipn {A B} (R : A -> B -> Prop) n : forall l1 l2, Forall2 R l1 l2 -> Forall2 R (skipn n l1) (skipn n l2).
Proof. induction n; intros l1 l2 H; simpl; auto. destruct H; auto. Qed.

Lemma min_skip_ok mb n k : min_skip mb n = Ok k -> k = (if (mb =? 0)%nat then n else mb - 1)%nat.
Proof.
  unfold min_skip. destruct mb as [|mb]; [destruct overflow_checks; [discriminate|]|]; intros HH; injection HH as <-; cbn [Nat.eqb]; lia.
Qed.
Lemma min_skip_pos mb n : (1 <= mb)%nat -> min_skip mb n = Ok (mb - 1)%nat.
Proof. intros H. destruct mb; [lia|]. cbn [min_skip]. f_equal. lia. Qed.

Lemma enforce_min_bits_swp md b mb :
  swp md rho (enforce_min_bits b mb) (fun c => bparams c = mkParams mb
     (max_word (bparams b)) (limb_width (bparams b)) (n_limbs (bparams b)) /\ limbs c = limbs b /\
    limb_values c = limb_values b /\ value c = value b /\ (1 <= mb)%nat /\
    ((limb_width (bparams b) < NUM_BITS)%nat -> 2 ^ Z.of_nat (mb - 1) <= int_of rho b)).
Proof.
  unfold enforce_min_bits. sstep. sstep. eapply swp_mono; [apply bn_decompose_swp; auto|]. cbv beta.
  intros bv (bss & H1 & H2 & H3). sstep. sstep. intros bits Hb. apply into_bits_lc in Hb.
  sstep. sstep. intros k Hk. apply min_skip_ok in Hk. cbv zeta.
  sstep. sstep. intros x v _. sstep. sstep. intros Hc. sstep.
  assert (Hmb : (1 <= mb)%nat).
  { destruct mb as [|mb]; [|lia]. exfalso. cbn [Nat.eqb] in Hk. subst k. rewrite skipn_all in Hc.
    cbn [sum_bits flat_map lc_eval] in Hc. lcs_in Hc. rewrite one, Z.mul_0_r in Hc. apply eqp_1_0. now symmetry. }
  rewrite (proj2 (Nat.eqb_neq mb 0)) in Hk by lia. subst k.
  unfold set_min_bits, with_params. cbn [bparams limbs limb_values value].
  split; [reflexivity|]. split; auto. split; auto. split; auto. split; auto. intros Hw.
  rewrite <- Hb in H3. pose proof (Forall2_skipn _ (mb - 1) _ _ H3) as H4. rewrite skipn_map in H4.
  rewrite (sum_bits_eval _ _ H4) in Hc. lcs_in Hc. rewrite one in Hc.
  assert (HV : int_of rho b = bits_value (List.concat bss)).
  { unfold int_of. rewrite (limb_bits _ _ _ _ Hw H1), (bits_value_concat (limb_width (bparams b))); auto.
    eapply Forall2_len_Forall; eauto. }
  rewrite HV. apply upper_ones. pose proof (ones_in_range (skipn (mb - 1) (List.concat bss))) as HR.
  destruct (Z.eq_dec (ones_in (skipn (mb - 1) (List.concat bss))) 0) as [H0|]; [|lia].
  rewrite H0, Z.mul_0_r in Hc. exfalso. apply eqp_1_0. now symmetry.
Qed.

End Rho.

(** ** Final forms *)
Lemma top_full_bits_sound wit b s c s' rho : run wit (enforce_full_bits b) s = (Ok c, s') -> sat rho s' ->
  (limb_width (bparams b) < NUM_BITS)%nat ->
  2 ^ Z.of_nat (limb_width (bparams b) * length (limbs b) - 1) <= int_of rho b /\
  limbs c = limbs b /\ limb_values c = limb_values b /\ value c = value b /\
  bparams c = mkParams (limb_width (bparams b) * n_limbs (bparams b))
     (max_word (bparams b)) (limb_width (bparams b)) (n_limbs (bparams b)).
Proof.
  intros Hr Hs Hw. destruct (swp_run_any _ _ _ _ _ _ _ Hr Hs (enforce_full_bits_swp rho (proj1 Hs) Any b))
    as (H1 & H2 & H3 & H4 & H5 & H6 & H7). auto.
Qed.
Lemma top_min_bits_sound wit b k s c s' rho : run wit (enforce_min_bits b k) s = (Ok c, s') -> sat rho s' ->
  (limb_width (bparams b) < NUM_BITS)%nat ->
  2 ^ Z.of_nat (k - 1) <= int_of rho b /\
  limbs c = limbs b /\ limb_values c = limb_values b /\ value c = value b /\
  bparams c = mkParams k (max_word (bparams b)) (limb_width (bparams b)) (n_limbs (bparams b)).
Proof.
  intros Hr Hs Hw. destruct (swp_run_any _ _ _ _ _ _ _ Hr Hs (enforce_min_bits_swp rho (proj1 Hs) Any b k))
    as (H1 & H2 & H3 & H4 & H5 & H6). auto.
Qed.

Lemma top_min_bits_zero_unsat wit b s c s' rho : run wit (enforce_min_bits b 0) s = (Ok c, s') -> ~ sat rho s'.
Proof.
  intros Hr Hs. destruct (swp_run_any _ _ _ _ _ _ _ Hr Hs (enforce_min_bits_swp rho (proj1 Hs) Any b 0))
    as (_ & _ & _ & _ & H & _). lia.
Qed.

Lemma bignat_at_int s b vs rho : bignat_at s b vs -> agree s rho -> rho ONE = 1 ->
  wires rho (limbs b) = vs /\ int_of rho b = value_of (2 ^ Z.of_nat (limb_width (bparams b))) vs.
Proof.
  intros Hb Ha one. assert (H : wires rho (limbs b) = vs).
  { apply ev_canon; [eapply bignat_at_ev; eauto|eapply bignat_at_canon; eauto]. }
  split; auto. unfold int_of. now rewrite H.
Qed.

Section Pre.
Context (b : bignat) (vs : list Z) (Hne : vs <> []).
Let w := limb_width (bparams b).
Context (HRange : Forall (fun v => 0 <= v < 2 ^ Z.of_nat w) vs) (Hw : (1 <= w <= NUM_BITS)%nat).

Lemma full_pre_rho rho : is_bn rho Honest b vs -> rho ONE = 1 -> exists vl l init vinit,
  limbs b = init ++ [l] /\ vs = vinit ++ [vl] /\ length init = length vinit /\
  hwp rho (num_decompose (mkNum l (Some vl)) w) (fun bv => exists bits x y, bv_into_bits bv = Ok bits /\ bits = y ++ [x] /\
     wire_bit rho (b_lc x) (Z.testbit vl (Z.of_nat (w - 1)))).
Proof.
  intros (Hev & _ & _ & HC & _) one.
  destruct (exists_last Hne) as (vi & vl & Hvs).
  assert (HL : limbs b <> []). { apply ev_length in Hev. destruct (limbs b); [|discriminate]. rewrite Hvs, app_length in Hev. simpl in Hev. lia. }
  destruct (exists_last HL) as (li & l & Hli).
  pose proof HRange as HRg. rewrite Hvs in HRg, HC, Hev. rewrite Hli in Hev.
  apply Forall_app in HRg. destruct HRg as [_ HRl]. inversion HRl as [|? ? HRv _]; subst.
  apply Forall_app in HC. destruct HC as [_ HCl]. inversion HCl as [|? ? HCv _]; subst.
  assert (Hlen : length li = length vi). { apply ev_length in Hev. rewrite !app_length in Hev. simpl in Hev. lia. }
  apply Forall2_app_inv_l in Hev. destruct Hev as (e1 & e2 & F1 & F2 & He).
  apply Forall2_length in F1. apply app_inj_len in He; [|lia]. destruct He as [<- <-].
  inversion F2 as [|? ? ? ? F3 _]; subst.
  exists vl, l, li, vi. split; auto. split; auto. split; auto.
  eapply hwp_mono; [apply (num_decompose_hwp rho one (mkNum l (Some vl)) w vl); auto; [split; auto|lia|lia]|].
  cbv beta. intros bv [V1 [V2 V3]].
  destruct (into_bits_ok bv _ V1) as (bits & I1 & I2 & I3).
  { rewrite map_length, seq_length. pose proof (Forall2_length _ _ _ V3) as HL'. rewrite map_length, seq_length in HL'. auto. }
  assert (HBl : bits <> []).
  { intros ->. pose proof (Forall2_length _ _ _ V3) as HL'. rewrite <- I2 in HL'. cbn [map length] in HL'. rewrite map_length, seq_length in HL'. lia. }
  destruct (exists_last HBl) as (y & x & ->). exists (y ++ [x]), x, y. split; auto. split; auto.
  rewrite <- I2, map_app in V3. assert (Hsq : seq 0 w = seq 0 (w - 1) ++ [(w - 1)%nat]).
  { replace w with (w - 1 + 1)%nat at 1 by lia. rewrite seq_app. reflexivity. }
  rewrite Hsq, map_app in V3.
  apply Forall2_app_inv_l in V3. destruct V3 as (e3 & e4 & F4 & F5 & He).
  cbn [map] in F5. pose proof (Forall2_length _ _ _ F5) as HL5.
  assert (Hl3 : length (map (fun i => Z.testbit vl (Z.of_nat i)) (seq 0 (w - 1))) = length e3).
  { apply (f_equal (@length _)) in He. rewrite !app_length in He. cbn [length map seq] in *. lia. }
  apply app_inj_len in He; auto. destruct He as [_ <-]. cbn [seq map] in F5. inversion F5; subst. auto.
Qed.

Lemma last_bit_rho vinit vl : vs = vinit ++ [vl] ->
  2 ^ Z.of_nat (w * length vs - 1) <= value_of (2 ^ Z.of_nat w) vs <-> Z.testbit vl (Z.of_nat (w - 1)) = true.
Proof.
  intros Hv. pose proof HRange as HRg. rewrite Hv in *. apply Forall_app in HRg. destruct HRg as [H1 H2].
  inversion H2 as [|? ? H3 _]; subst. rewrite value_of_app, app_length. cbn [value_of length].
  pose proof (value_of_bound _ _ (pow2_pos w) H1) as HB.
  replace (w * (length vinit + 1) - 1)%nat with (w * length vinit + (w - 1))%nat by lia.
  rewrite pow2_add, pow2_mul. set (X := (2 ^ Z.of_nat w) ^ Z.of_nat (length vinit)) in *.
  transitivity (2 ^ Z.of_nat (w - 1) <= vl).
  - pose proof (pow2_pos (w - 1)). split; intros; [|nia]. nia.
  - rewrite testbit_ge by lia. split.
    + intros (i & Hi & Ht). destruct (Z.eq_dec i (Z.of_nat (w - 1))); [congruence|]. exfalso.
      assert (2 ^ Z.of_nat w <= vl); [|lia]. apply testbit_ge; [lia|lia|]. exists i. split; [lia|auto].
    + intros Ht. exists (Z.of_nat (w - 1)). split; [lia|auto].
Qed.

End Pre.

Section Honest.
Context (b : bignat) (vs : list Z) (s : st) (G : good s) (Hb : bignat_at s b vs) (Hne : vs <> []).
Let w := limb_width (bparams b).
Context (HR : Forall (fun v => v < 2 ^ Z.of_nat w) vs) (Hw : (1 <= w <= NUM_BITS)%nat).

Lemma vs_range : Forall (fun v => 0 <= v < 2 ^ Z.of_nat w) vs.
Proof.
  pose proof (bignat_at_word _ _ _ Hb) as H. unfold in_word in H. rewrite Forall_forall in *. intros v Hv.
  specialize (H v Hv). specialize (HR v Hv). lia.
Qed.

Lemma full_pre rho : agree s rho -> rho ONE = 1 -> exists vl l init vinit,
  limbs b = init ++ [l] /\ vs = vinit ++ [vl] /\ length init = length vinit /\
  hwp rho (num_decompose (mkNum l (Some vl)) w) (fun bv => exists bits x y, bv_into_bits bv = Ok bits /\ bits = y ++ [x] /\
     wire_bit rho (b_lc x) (Z.testbit vl (Z.of_nat (w - 1)))).
Proof. intros Ha one. apply full_pre_rho; auto; [apply vs_range|]. apply (bignat_at_is _ _ _ _ Hb Ha one). Qed.

Lemma last_bit_bound vinit vl : vs = vinit ++ [vl] ->
  2 ^ Z.of_nat (w * length vs - 1) <= value_of (2 ^ Z.of_nat w) vs <-> Z.testbit vl (Z.of_nat (w - 1)) = true.
Proof. eapply last_bit_rho; eauto using vs_range. Qed.

Lemma top_full_bits_honest : (w < NUM_BITS)%nat -> exists c s', run true (enforce_full_bits b) s = (Ok c, s') /\
  (good s' <-> 2 ^ Z.of_nat (w * length vs - 1) <= value_of (2 ^ Z.of_nat w) vs).
Proof.
  intros Hn.
  assert (Hok : exists c, fst (run true (enforce_full_bits b) s) = Ok c).
  { apply (owp_result _ _ (fun r => exists c, r = Ok c) G). intros rho Ha one.
    destruct (full_pre rho Ha one) as (vl & l & init & vinit & H1 & H2 & H3 & H4).
    unfold enforce_full_bits. destruct Hb as (B1 & _). rewrite B1. rewrite H1, H2, !vec_pop_snoc.
    cbn [unwrap rbind lift bind].
    eapply owp_bind_ok; [apply hwp_ns; exact H4|]. cbv beta. intros bv (bits & x & y & I1 & -> & I3).
    rewrite I1. cbn [lift bind]. rewrite vec_pop_snoc. cbn. eauto. }
  destruct (run true (enforce_full_bits b) s) as [r s'] eqn:Hr. cbn [fst] in Hok. destruct Hok as [c ->].
  exists c, s'. split; auto. split.
  - intros Hg. pose proof (Hg _ (agree_asg s')) as Hs.
    destruct (top_full_bits_sound _ _ _ _ _ _ Hr Hs Hn) as [H _]. fold w in H.
    assert (Ha : agree s (asg s')) by (eapply run_agree; eauto using agree_asg).
    destruct (bignat_at_int _ _ _ _ Hb Ha (proj1 Hs)) as [H1 H2]. rewrite H2 in H. fold w in H.
    rewrite <- H1. unfold wires at 1. rewrite map_length. rewrite H1. exact H.
  - intros HV. destruct (hwp_run (enforce_full_bits b) s (fun _ _ => True) G) as (c' & s'' & Hr' & Hg & _).
    2:{ rewrite Hr in Hr'. injection Hr' as _ <-. exact Hg. }
    intros rho Ha one.
    destruct (full_pre rho Ha one) as (vl & l & init & vinit & H1 & H2 & H3 & H4).
    apply (last_bit_bound _ _ H2) in HV. rewrite HV in H4.
    unfold enforce_full_bits. destruct Hb as (B1 & _). rewrite B1. rewrite H1. rewrite H2 at 1. rewrite !vec_pop_snoc.
    cbn [unwrap rbind lift bind]. hstep. hstep. eapply hwp_mono; [exact H4|]. cbv beta. intros bv (bits & x & y & I1 & -> & I3).
    rewrite I1. cbn [lift bind]. rewrite vec_pop_snoc. cbn [unwrap rbind lift bind]. hstep. hstep.
    eapply hwp_mono; [apply bit_constrain_hwp; auto|]. intros; exact I.
Qed.

Lemma min_pre rho : agree s rho -> rho ONE = 1 ->
  hwp rho (bn_decompose b) (fun bv => exists bits bs, bv_into_bits bv = Ok bits /\ map b_val bits = map Some bs /\
     wire_bits rho (map b_lc bits) bs /\ length bs = (w * length vs)%nat /\ bits_value bs = value_of (2 ^ Z.of_nat w) vs).
Proof.
  intros Ha one. 
  assert (Hlen : length (flat_map (bits_of w) vs) = (w * length vs)%nat).
  { clear. induction vs; cbn [flat_map length]; [lia|]. rewrite app_length, bits_of_length, IHl. lia. }
  eapply hwp_mono; [eapply hwp_awp; apply (bn_decompose_awp rho one Honest b vs)|].
  - apply (bignat_at_is _ _ _ _ Hb Ha one).
  - exact HR.
  - apply Hw.
  - cbv beta. intros bv [[H1 H1'] H2]. fold w in H1', H2. 
    assert (H3 : flat_map (bits_of w) vs <> []).
    { intros C. apply (f_equal (@length _)) in C. rewrite Hlen in C. destruct vs; [congruence|]. cbn [length] in C. lia. }
    specialize (H2 eq_refl H3). pose proof (Forall2_length _ _ _ H1') as HL.
    destruct (into_bits_ok bv _ H2 (eq_sym HL)) as (bits & I1 & I2 & I3).
    exists bits, (flat_map (bits_of w) vs). split; auto. split; auto. split; [now rewrite I2|]. split; auto.
    apply bits_value_of_limbs. exact vs_range.
Qed.

Lemma top_min_bits_honest k : (1 <= k)%nat -> Z.of_nat (w * length vs) < modulus ->
  2 ^ Z.of_nat (k - 1) <= value_of (2 ^ Z.of_nat w) vs ->
  exists c s', run true (enforce_min_bits b k) s = (Ok c, s') /\ good s' /\ bignat_at s' c vs.
Proof.
  intros Hk Hm HV.
  destruct (hwp_run (enforce_min_bits b k) s (fun _ c => c = set_min_bits b k) G) as (c & s' & Hr & Hg & Hag & HQ).
  - intros rho Ha one. unfold enforce_min_bits. hstep. hstep. eapply hwp_mono; [apply min_pre; auto|]. cbv beta.
    intros bv (bits & bs & I1 & I2 & I3 & I4 & I5). rewrite I1. cbn [lift bind].
    rewrite min_skip_pos by auto. cbn [lift bind].
    pose proof (Forall2_skipn _ (k - 1) _ _ I3) as H4. rewrite skipn_map in H4.
    assert (I2' : map b_val (skipn (k - 1) bits) = map Some (skipn (k - 1) bs)).
    { rewrite <- !skipn_map. now rewrite I2. }
    destruct (count_bits_ok _ _ I2' fzero) as (x & C1 & C2 & C3); [apply canon_0|].
    rewrite <- I5 in HV. apply upper_ones in HV. pose proof (ones_in_range (skipn (k - 1) bs)) as HO.
    rewrite skipn_length, I4 in HO.
    assert (Hx : ~ eqp x 0).
    { rewrite C3. change fzero with 0. rewrite Z.add_0_l. intros C. apply eqp_small in C; lia. }
    destruct (finvert_spec x Hx) as (i & V1 & V2 & V3).
    hstep. hstep; [rewrite C1; cbn [rbind]; rewrite V1; reflexivity|]. intros y Hy. hstep. hstep.
    + rewrite (sum_bits_eval rho _ _ H4). lcs. rewrite Hy, one.
      change fzero with 0 in C3. rewrite Z.add_0_l in C3. now rewrite <- C3, Z.mul_comm.
    + hstep. reflexivity.
  - exists c, s'. split; auto. split; auto. rewrite (HQ _ (agree_asg s')).
    destruct Hb as (B1 & B2 & B3 & B4 & B5). split; [exact B1|]. split; [|split; [exact B3|split; [exact B4|exact B5]]].
    cbn [set_min_bits with_params limbs]. clear -B2 Hag. induction B2 as [|l v ls vs' Hc _ IH]; constructor; auto. intros rho Ha one. apply Hc; auto.
Qed.

Lemma top_min_bits_short k : (1 <= k)%nat -> value_of (2 ^ Z.of_nat w) vs < 2 ^ Z.of_nat (k - 1) ->
  fst (run true (enforce_min_bits b k) s) = Panic.
Proof.
  intros Hk HV. apply (owp_result _ _ (fun r => r = Panic) G). intros rho Ha one.
  unfold enforce_min_bits. eapply owp_bind_ok; [apply hwp_ns; apply min_pre; auto|]. cbv beta.
  intros bv (bits & bs & I1 & I2 & I3 & I4 & I5). rewrite I1. cbn [lift bind].
  rewrite min_skip_pos by auto. cbn [lift bind].
  assert (I2' : map b_val (skipn (k - 1) bits) = map Some (skipn (k - 1) bs)).
  { rewrite <- !skipn_map. now rewrite I2. }
  destruct (count_bits_ok _ _ I2' fzero) as (x & C1 & C2 & C3); [apply canon_0|].
  pose proof (ones_in_range (skipn (k - 1) bs)) as HO. pose proof (upper_ones bs (k - 1)) as HU. rewrite I5 in HU.
  rewrite C1. cbn [rbind]. rewrite finvert_zero; [reflexivity|].
  rewrite C3. change fzero with 0. rewrite Z.add_0_l. replace (ones_in (skipn (k - 1) bs)) with 0 by lia. reflexivity.
Qed.
Lemma top_min_bits_zero : fst (run true (enforce_min_bits b 0) s) = Panic.
Proof.
  apply (owp_result _ _ (fun r => r = Panic) G). intros rho Ha one.
  unfold enforce_min_bits. eapply owp_bind_ok; [apply hwp_ns; apply min_pre; auto|]. cbv beta.
  intros bv (bits & bs & I1 & _). rewrite I1. cbn [lift bind min_skip]. destruct overflow_checks; [reflexivity|].
  cbn [lift bind]. rewrite skipn_all. cbn [count_bits rbind]. rewrite finvert_zero by reflexivity. reflexivity.
Qed.
End Honest.
End MinBits.
