(** Consequences of the lemmas about big naturals: recorded bounds, refutations, concrete parameters. *)
From Coq Require Import ZArith Bool List Lia Setoid Morphisms ZifyBool ZifyNat.
From Verif.Model Require Import Base CS Bellpepper Util Poly Bignat Gadget Fields.
From Verif.Spec Require Import Spec.
From Verif.Proofs Require Import Field Arith Convert Limbs Wp Lc BitNum PolyP BoolP BignatEq BignatAlloc Group Carry Regroup Mult MultC TopBits TopPoly TopBignat1 PureOps TopPure Owp MinBits MuxP SubP TopBignat2 Room Prime PrimeFields.
Import ListNotations.
Local Open Scope Z_scope.

Section Top.
Context {E : Env} {W : Wf E}.

(** ** The recorded minimum bit length *)
Lemma pow2_mono_le a b : (a <= b)%nat -> 2 ^ Z.of_nat a <= 2 ^ Z.of_nat b.
Proof. intros. apply Z.pow_le_mono_r; lia. Qed.

Lemma top_min_bits_add a b c u v : add a b = Ok c -> 0 <= u -> 0 <= v ->
  min_bits_ok a u -> min_bits_ok b v -> min_bits_ok c (u + v).
Proof.
  unfold add. destruct (width_agreement a b) as [w| |]; cbn [rbind]; [|discriminate..].
  destruct (rmapM _ _) as [ls| |]; cbn [rbind]; [|discriminate..].
  destruct (match limb_values a with Some _ => _ | None => _ end) as [lv| |]; cbn [rbind]; [|discriminate..].
  intros [= <-] Hu Hv Ha Hb. unfold min_bits_ok in *. cbn [bparams min_bits].
  destruct (Nat.max_spec (min_bits (bparams a)) (min_bits (bparams b))) as [[_ ->]|[_ ->]]; [destruct Hb|destruct Ha]; auto; right; lia.
Qed.
Lemma top_min_bits_shift b k c v : canon k -> shift b k = Ok c -> min_bits_ok b v -> min_bits_ok c (v + k).
Proof.
  unfold shift. intros Hk. destruct (limbs b); [discriminate|].
  destruct (match limb_values b with None => _ | Some _ => _ end) as [lv| |]; cbn [rbind]; [|discriminate..].
  destruct (_ <=? _); [|discriminate]. intros [= <-] Hb. unfold min_bits_ok, canon in *. cbn [bparams min_bits].
  destruct Hb; auto. right. lia.
Qed.
Lemma top_min_bits_scale b k c v : 1 <= k -> 0 <= v -> scale b k = Ok c -> min_bits_ok b v -> min_bits_ok c (v * k).
Proof.
  unfold scale. intros Hk Hv. destruct (_ <=? _); [|discriminate]. intros [= <-] Hb. unfold min_bits_ok in *. cbn [bparams min_bits].
  destruct Hb; auto. right. nia.
Qed.
Lemma top_min_bits_group b g c v : group_limbs b g = Ok c -> min_bits_ok b v -> min_bits_ok c v.
Proof.
  unfold group_limbs.
  intros H Hb. repeat match type of H with rbind ?r _ = _ => destruct r; cbn [rbind] in H; [|discriminate..] end.
  injection H as <-. exact Hb.
Qed.
Lemma top_min_bits_with_n b n c v : with_n_limbs b n = Ok c -> min_bits_ok b v -> min_bits_ok c v.
Proof.
  unfold with_n_limbs. destruct (_ <? _)%nat; [discriminate|]. destruct (_ =? _)%nat; intros [= <-] Hb; exact Hb.
Qed.
Lemma top_min_bits_mult wit a b s p s' u v : run wit (mult a b) s = (Ok p, s') -> 0 <= u -> 0 <= v ->
  min_bits_ok a u -> min_bits_ok b v -> min_bits_ok p (u * v).
Proof.
  intros Hr Hu Hv Ha Hb.
  refine (rets_run wit _ _ (fun p => min_bits_ok p (u * v)) _ _ _ Hr). unfold mult.
  apply rets_skip; intros _. cbv zeta. apply rets_bind, rets_ns. eapply rets_mono; [apply rets_alloc_nat|]. cbv beta. intros q [Hq _].
  do 2 (apply rets_skip; intros ?). cbn [rets]. unfold min_bits_ok in *.
  destruct (Nat.ltb_spec 0 (min_bits (bparams a))); cbn [andb]; [|left; rewrite Hq; reflexivity].
  destruct (Nat.ltb_spec 0 (min_bits (bparams b))); [|left; rewrite Hq; reflexivity].
  cbn [set_min_bits with_params bparams min_bits]. right.
  destruct Ha as [|Ha]; [lia|]. destruct Hb as [|Hb]; [lia|].
  replace (min_bits (bparams a) + min_bits (bparams b) - 1 - 1)%nat with ((min_bits (bparams a) - 1) + (min_bits (bparams b) - 1))%nat by lia.
  rewrite Nat2Z.inj_add, Z.pow_add_r by lia. pose proof (pow2_pos (min_bits (bparams a) - 1)). pose proof (pow2_pos (min_bits (bparams b) - 1)). nia.
Qed.
Lemma top_min_bits_mux wit x i0 i1 s c s' v : run wit (mux x i0 i1) s = (Ok c, s') -> min_bits_ok c v.
Proof.
  intros Hr. refine (rets_run wit _ _ (fun c => min_bits_ok c v) _ _ _ Hr). unfold mux. cbv zeta.
  do 2 (apply rets_skip; intros ?). destruct (_ || _)%bool; [exact I|].
  apply rets_bind, rets_ns. eapply rets_mono; [apply rets_alloc_nat|]. cbv beta. intros q [Hq _].
  apply rets_skip; intros ?. cbn [rets]. left. rewrite Hq. reflexivity.
Qed.
Lemma top_min_bits_sub wit a b s c s' v : run wit (sub a b) s = (Ok c, s') -> min_bits_ok c v.
Proof.
  intros Hr. refine (rets_run wit _ _ (fun c => min_bits_ok c v) _ _ _ Hr). unfold sub.
  apply rets_bind, rets_ns. eapply rets_mono; [apply rets_alloc_nat|]. cbv beta. intros q [Hq _].
  do 2 (apply rets_skip; intros ?). cbn [rets]. left. rewrite Hq. reflexivity.
Qed.

(** Truncation and scaling by zero keep a bound that no longer holds. *)
Lemma top_truncate_min_bits w s : good s -> (2 <= w)%nat -> exists b c,
  bignat_at s b [0; 1] /\ limb_width (bparams b) = w /\ min_bits_ok b (2 ^ Z.of_nat w) /\
  truncate_limbs b 1 = Ok c /\ bignat_at s c [0] /\ ~ min_bits_ok c 0.
Proof.
  intros G Hw. pose proof W as [_ W2 _ _].
  set (b := mkBigNat [lc_zero; lc_var ONE] (Some [0; 1]) (Some (2 ^ Z.of_nat w)) (mkParams 2 1 w 2)).
  assert (C0 : canon 0) by apply canon_0. assert (C1 : canon 1) by (unfold canon; lia).
  assert (Hb : bignat_at s b [0; 1]).
  { apply mk_bignat_at; auto.
    - intros rho _ one. cbn [b limbs]. constructor; [|constructor; [|constructor]]; lcs; rewrite ?one. all: reflexivity.
    - cbn [b value limb_width bparams value_of]. f_equal. ring.
    - unfold in_word. cbn [b bparams max_word]. repeat constructor; lia. }
  destruct (top_truncate_values s b [0; 1] 1 G Hb) as (c & Hc & Hcv). exists b, c.
  split; auto. split; auto. split.
  { right. cbn [b bparams min_bits]. apply (pow2_mono_le 1). lia. }
  split; auto. split; auto. intros Hm.
  assert (Hp : min_bits (bparams c) = 2%nat).
  { unfold truncate_limbs in Hc. cbn [b limbs length Nat.ltb Nat.leb] in Hc.
    destruct (pop_limbs _ _) as [b'| |]; cbn [rbind] in Hc; [|discriminate..]. injection Hc as <-.
    cbn [with_params bparams min_bits]. destruct (Nat.leb_spec (w + 0) 1); [lia|reflexivity]. }
  destruct Hm as [Hm|Hm]; rewrite Hp in Hm; [lia|]. cbn in Hm. lia.
Qed.
Lemma top_scale_min_bits w s : good s -> exists c,
  bignat_at s (bn_one w) [1] /\ min_bits_ok (bn_one w) 1 /\
  scale (bn_one w) 0 = Ok c /\ bignat_at s c [0] /\ ~ min_bits_ok c 0.
Proof.
  intros G. destruct (top_one w s G) as (H1 & _ & H3 & _).
  destruct (top_scale (bn_one w) 0) as (c & Hc & _ & _ & _ & _ & Hv).
  - apply (bignat_at_shaped _ _ _ H1).
  - apply canon_0.
  - cbn. lia.
  - cbn [bn_one bparams max_word]. rewrite Z.mul_0_r. pose proof (pow2_pos CAPACITY). lia.
  - exists c. split; auto. split; auto. split; auto. split; [apply (Hv s [1] G H1)|].
    unfold scale in Hc. destruct (_ <=? _); [|discriminate]. injection Hc as <-. intros [Hm|Hm]; cbn in Hm; lia.
Qed.

(** [add] accepts operands whose words add up beyond the modulus. *)
Lemma top_add_overflow w s : good s -> exists a s' c,
  run true (alloc_from_limbs (Ok [modulus - 1]) (Some (modulus - 1)) w 1) s = (Ok a, s') /\ good s' /\
  bignat_at s' a [modulus - 1] /\ add a a = Ok c /\ value c = Some (2 * modulus - 2) /\
  forall vs, ~ bignat_at s' c vs.
Proof.
  intros G. pose proof W as [_ W2 _ _].
  assert (C : canon (modulus - 1)) by (unfold canon; lia).
  destruct (top_alloc_from_limbs [modulus - 1] (Some (modulus - 1)) w 1 s G) as (a & s' & Hr & Hg & Hl & Hv & Hc & Hp); auto.
  assert (Ha : bignat_at s' a [modulus - 1]).
  { split; auto. split; auto. rewrite Hp. cbn [limb_width n_limbs max_word]. split; auto. split; auto.
    constructor; [|constructor]. split; [lia|auto]. }
  destruct (top_add a a) as (c & Hadd & Sc & Mc & Wc & _).
  - apply (bignat_at_shaped _ _ _ Ha).
  - apply (bignat_at_shaped _ _ _ Ha).
  - reflexivity.
  - exists a, s', c. split; auto. split; auto. split; auto. split; auto.
    assert (Hvc : value c = Some (2 * modulus - 2)).
    { unfold add in Hadd. destruct (width_agreement a a) as [w'| |]; cbn [rbind] in Hadd; [|discriminate..].
      destruct (rmapM _ _) as [ls| |]; cbn [rbind] in Hadd; [|discriminate..].
      destruct (match limb_values a with Some _ => _ | None => _ end) as [lv| |]; cbn [rbind] in Hadd; [|discriminate..].
      injection Hadd as <-. cbn [value]. rewrite Hv. cbn [value_of]. f_equal. lia. }
    split; auto. intros vs (L1 & L2 & L3 & L4 & L5).
    assert (length vs = 1%nat).
    { rewrite <- L4. destruct Sc as [Sc _]. unfold add in Hadd. rewrite Hp in Hadd.
      destruct (width_agreement a a) as [w'| |]; cbn [rbind] in Hadd; [|discriminate..].
      destruct (rmapM _ _) as [ls| |]; cbn [rbind] in Hadd; [|discriminate..].
      destruct (match limb_values a with Some _ => _ | None => _ end) as [lv| |]; cbn [rbind] in Hadd; [|discriminate..].
      injection Hadd as <-. reflexivity. }
    destruct vs as [|v [|? ?]]; try discriminate. rewrite Hvc in L3. apply (f_equal (fun o => match o with Some z => z | None => 0 end)) in L3. cbn [value_of] in L3. rewrite Z.mul_0_r in L3.
    apply Forall_inv in L5. destruct L5 as [_ [_ Hv1]]. lia.
Qed.

(** ** Inputs of an honest run, seen as values of one assignment *)
Lemma same_agree s rho : same_on s rho (asg s) -> agree s rho.
Proof. intros [H1 H2]. destruct (agree_asg s) as [K1 K2]. split; intros n Hn; [rewrite H1, K1|rewrite H2, K2]; auto. Qed.
Lemma good_good_for s : good s -> good_for (asg s) s.
Proof. intros G r Hr. apply G, same_agree, Hr. Qed.
Lemma bignat_at_for s b vs : bignat_at s b vs -> bignat_for (asg s) s b vs.
Proof.
  intros Hb. split; [apply (bignat_at_shaped _ _ _ Hb)|]. destruct Hb as (_ & Hc & _ & _ & Hw). split.
  - clear Hw. induction Hc; constructor; auto.
  - eapply Forall_impl; [|exact Hw]. cbv beta. lia.
Qed.
Lemma bignat_at_length s b vs : bignat_at s b vs -> length (limbs b) = length vs.
Proof. intros (_ & Hc & _). clear -Hc. induction Hc; cbn; auto. Qed.

(** ** equal_when_carried rejects some equal numbers *)
Lemma top_ewc_high_limb wit a b xs ys s u s' rho0 i :
  let w := limb_width (bparams a) in
  let M := Z.max (max_word (bparams a)) (max_word (bparams b)) in
  good_for rho0 s -> bignat_for rho0 s a xs -> bignat_for rho0 s b ys ->
  run wit (equal_when_carried a b) s = (Ok u, s') -> (1 <= w)%nat -> no_wrap M w ->
  (Nat.min (length xs) (length ys) <= i)%nat -> nth i xs 0 <> 0 \/ nth i ys 0 <> 0 ->
  ~ exists rho, same_on s rho rho0 /\ sat rho s'.
Proof.
  intros w M G Ha Hb Hr Hw Hn Hi Hd Hx. apply (top_ewc_exact wit a b xs ys s u s' rho0 G Ha Hb Hr Hw Hn) in Hx.
  destruct Hx as (_ & H & _). specialize (H i Hi). tauto.
Qed.
Lemma top_ewc_15 wit a b x s u s' rho0 :
  good_for rho0 s -> bignat_for rho0 s a [15; 15; x] -> bignat_for rho0 s b [7; 0; x + 2] ->
  limb_width (bparams a) = 3%nat -> max_word (bparams a) = 15 -> max_word (bparams b) = 15 ->
  carry_bits_f64 15 3 = 2%nat -> 40 <= modulus ->
  run wit (equal_when_carried a b) s = (Ok u, s') ->
  value_of (2 ^ 3) [15; 15; x] = value_of (2 ^ 3) [7; 0; x + 2] /\
  ~ exists rho, same_on s rho rho0 /\ sat rho s'.
Proof.
  intros G Ha Hb Hw Ma Mb Hcb Hp Hr. split; [cbn [value_of]; ring|]. intros Hx.
  pose proof (top_ewc_exact wit a b [15; 15; x] [7; 0; x + 2] s u s' rho0 G Ha Hb Hr) as H. cbv zeta in H.
  rewrite Hw, Ma, Mb in H. change (Z.max 15 15) with 15 in H.
  assert (Hcw : carry_width 15 3 = 2%nat) by (unfold carry_width; rewrite Hcb; reflexivity).
  apply H in Hx; [|lia|unfold no_wrap; rewrite Hcw; cbn; lia].
  destruct Hx as (_ & _ & K). specialize (K 2%nat ltac:(cbn; lia)). rewrite Hcw in K. cbn in K. lia.
Qed.

(** ** The remainder of mult_mod is not determined *)
Lemma top_mult_mod_ambiguous a b m A B Mm s :
  let w := limb_width (bparams a) in
  let X := 2 ^ Z.of_nat w in
  let ql := q_limbs (n_bits_of a + n_bits_of b) (min_bits (bparams m)) w in
  let M := Z.max (product_word (length A) (max_word (bparams a)) (length B) (max_word (bparams b)))
     (product_word ql (X - 1) (length Mm) (max_word (bparams m)) + (X - 1)) in
  let g := group_size M w in
  let P := value_of X A * value_of X B in
  good s -> bignat_at s a A -> bignat_at s b B -> bignat_at s m Mm ->
  limb_width (bparams b) = w -> limb_width (bparams m) = w ->
  A <> [] -> B <> [] -> Mm <> [] -> (1 <= w)%nat -> (w < NUM_BITS)%nat ->
  0 < value_of X Mm <= P -> P mod value_of X Mm + value_of X Mm < 2 ^ Z.of_nat (w * length Mm) ->
  P / value_of X Mm < 2 ^ Z.of_nat (w * ql) ->
  group_room M w ->
  fits_groups w g (length A + length B - 1) (Nat.max (ql + length Mm - 1) (length Mm)) P ->
  exists q r s' rho, run true (mult_mod a b m) s = (Ok (q, r), s') /\ good s' /\
    value r = Some (P mod value_of X Mm) /\
    same_on s rho (asg s) /\ sat rho s' /\
    int_of rho a = value_of X A /\ int_of rho b = value_of X B /\ int_of rho m = value_of X Mm /\
    int_of rho r = P mod value_of X Mm + value_of X Mm.
Proof.
  intros w X ql M g P G Ha Hb Hm Hwb Hwm HA HB HM Hw HwN [HM0 HMP] Hfit Hq Hroom Hgr.
  pose proof (Z.mod_pos_bound P (value_of X Mm) HM0) as Hmod.
  assert (Hdiv : 1 <= P / value_of X Mm) by (apply Z.div_le_lower_bound; lia).
  destruct (top_mult_mod_complete a b m A B Mm s G Ha Hb Hm Hwb (or_introl Hwm) HA HB HM Hw HwN ltac:(fold w X; lia) Hq Hroom Hgr)
    as (q & r & s' & Q & R & Hr & Hg & Hbq & Hbr & LQ & LR & _ & Vr).
  destruct (digits_facts w ql (P / value_of X Mm - 1) ltac:(lia)) as (LQ' & RQ' & VQ').
  destruct (digits_facts w (length Mm) (P mod value_of X Mm + value_of X Mm) ltac:(lia)) as (LR' & RR' & VR').
  set (Q' := map (digit w (P / value_of X Mm - 1)) (seq 0 ql)) in *.
  set (R' := map (digit w (P mod value_of X Mm + value_of X Mm)) (seq 0 (length Mm))) in *.
  pose proof (top_mult_mod_any true a b m A B Mm Q' R' s q r s' (asg s) (good_good_for _ G) (bignat_at_for _ _ _ Ha) (bignat_at_for _ _ _ Hb)
     (bignat_at_for _ _ _ Hm) Hr HA HB HM Hw HwN) as H. cbv zeta in H. rewrite LQ' in H. fold w X ql in H. fold M g in H.
  destruct H as (rho & H1 & H2 & H3 & H4); auto.
  - rewrite (bignat_at_length _ _ _ Hbq). exact (eq_sym LQ).
  - fold X in VQ', VR'. rewrite VQ', VR'. fold P. pose proof (Z.div_mod P (value_of X Mm)). lia.
  - rewrite LR'. exact Hgr.
  - exists q, r, s', rho. split; auto. split; auto. split; auto. split; auto. split; auto.
    assert (one : rho ONE = 1) by apply H2. pose proof (same_agree _ _ H1) as Hag.
    destruct (bignat_at_int _ _ _ _ Ha Hag one) as [_ ->]. destruct (bignat_at_int _ _ _ _ Hb Hag one) as [_ ->].
    destruct (bignat_at_int _ _ _ _ Hm Hag one) as [_ ->]. rewrite Hwb, Hwm. fold w X. split; auto. split; auto. split; auto.
    unfold int_of. rewrite H4.
    assert (Hwr : limb_width (bparams r) = w).
    { refine (rets_run true _ _ (fun qr => limb_width (bparams (snd qr)) = w) _ _ _ Hr).
      unfold mult_mod, width_agreement. rewrite Hwb. fold w. rewrite Nat.eqb_refl. cbn [lift bind].
      do 5 (apply rets_skip; intros ?). cbv zeta. apply rets_bind, rets_ns. eapply rets_mono; [apply rets_alloc_nat|]. cbv beta. intros r0 [Hr0 _].
      do 4 (apply rets_skip; intros ?). cbn [rets snd]. rewrite Hr0. reflexivity. }
    rewrite Hwr. fold X. rewrite <- VR'. reflexivity.
Qed.

(** The quotient of mult_mod gets enough limbs unless the bit count is a multiple of the width. *)
Lemma top_quotient_fits bits mb w P m : (1 <= w)%nat -> 0 <= P < 2 ^ Z.of_nat bits -> 0 < m ->
  mb = 0%nat \/ (2 ^ Z.of_nat (mb - 1) <= m /\ ((bits - mb) mod w <> 0)%nat) ->
  P / m < 2 ^ Z.of_nat (w * q_limbs bits mb w).
Proof.
  intros Hw HP Hm H. unfold q_limbs. apply Z.div_lt_upper_bound; auto.
  pose proof (Nat.div_mod (bits - mb - 1) w ltac:(lia)) as HD. pose proof (Nat.mod_upper_bound (bits - mb - 1) w ltac:(lia)) as HU.
  assert (Hq : (bits - mb <= w * ((bits - mb - 1) / w + 1))%nat) by nia.
  destruct H as [->|[Hmb Hmod]].
  - assert (2 ^ Z.of_nat bits <= 2 ^ Z.of_nat (w * ((bits - 0 - 1) / w + 1))) by (apply pow2_mono_le; lia).
    pose proof (pow2_pos (w * ((bits - 0 - 1) / w + 1))). nia.
  - assert (Hq' : (S (bits - mb) <= w * ((bits - mb - 1) / w + 1))%nat).
    { destruct (Nat.eq_dec (bits - mb) (w * ((bits - mb - 1) / w + 1))) as [e|]; [|lia]. exfalso. apply Hmod. rewrite e.
      rewrite Nat.mul_comm. apply Nat.mod_mul. lia. }
    apply pow2_mono_le in Hq'. rewrite Nat2Z.inj_succ, Z.pow_succ_r in Hq' by lia.
    assert (2 ^ Z.of_nat bits <= 2 ^ Z.of_nat (mb - 1) * (2 * 2 ^ Z.of_nat (bits - mb))).
    { rewrite <- Z.pow_succ_r, <- Z.pow_add_r by lia. apply Z.pow_le_mono_r; lia. }
    pose proof (pow2_pos (mb - 1)). pose proof (pow2_pos (bits - mb)). nia.
Qed.
Lemma top_mult_mod_short a b m A B Mm s :
  let w := limb_width (bparams a) in
  let X := 2 ^ Z.of_nat w in
  let ql := q_limbs (n_bits_of a + n_bits_of b) (min_bits (bparams m)) w in
  let P := value_of X A * value_of X B in
  good s -> bignat_at s a A -> bignat_at s b B -> bignat_at s m Mm ->
  limb_width (bparams b) = w -> limb_width (bparams m) = w -> A <> [] -> B <> [] -> (1 <= w)%nat ->
  0 < value_of X Mm -> 2 ^ Z.of_nat (w * ql) <= P / value_of X Mm ->
  fst (run true (mult_mod a b m) s) = Err IoError.
Proof.
  intros w X ql P G Ha Hb Hm Hwb Hwm HA HB Hw HM0 Hq. apply nonempty_length in HA, HB. pose proof (pow2_pos w) as HX.
  assert (P0 : 0 <= P) by (apply Z.mul_nonneg_nonneg; eapply bignat_at_nonneg; eauto; unfold X; lia).
  destruct Ha as (_ & _ & Va & Na & _). destruct Hb as (_ & _ & Vb & Nb & _). destruct Hm as (_ & _ & Vm & _).
  unfold mult_mod, width_agreement. rewrite Hwb. fold w. rewrite Nat.eqb_refl. cbn [lift bind].
  rewrite (n_bits_ok a), (n_bits_ok b) by lia. cbn [lift bind].
  unfold quotient_limbs. rewrite (proj2 (Nat.eqb_neq w 0)) by lia. cbn [lift bind].
  fold (q_limbs (n_bits_of a + n_bits_of b) (min_bits (bparams m)) w). fold ql.
  rewrite Va, Vb, Vm, Hwb, Hwm. fold w X. cbn [grab rbind]. unfold bigint_div. rewrite (proj2 (Z.eqb_neq _ 0)) by lia.
  fold P. rewrite Z.quot_div_nonneg by lia.
  assert (Hql : (1 <= ql)%nat) by (unfold ql, q_limbs; apply Nat.le_add_l).
  assert (HE : forall s, run true (alloc_from_nat (Ok (P / value_of X Mm)) w ql) s = (Err IoError, s)).
  { intros s0. apply top_alloc_from_nat_error; auto. apply Z.div_pos; lia. }
  rewrite run_bind. unfold ns at 1. cbn [run]. rewrite run_bind, HE. reflexivity.
Qed.

Lemma top_red_mod_ambiguous a m A Mm s :
  let w := limb_width (bparams a) in
  let X := 2 ^ Z.of_nat w in
  let ql := q_limbs (n_bits_of a) (min_bits (bparams m)) w in
  let M := Z.max (max_word (bparams a)) (product_word ql (X - 1) (length Mm) (max_word (bparams m)) + (X - 1)) in
  let g := group_size M w in
  let P := value_of X A in
  good s -> bignat_at s a A -> bignat_at s m Mm -> limb_width (bparams m) = w ->
  A <> [] -> Mm <> [] -> (1 <= w)%nat -> (w < NUM_BITS)%nat ->
  0 < value_of X Mm <= P -> P mod value_of X Mm + value_of X Mm < 2 ^ Z.of_nat (w * length Mm) ->
  P / value_of X Mm < 2 ^ Z.of_nat (w * ql) ->
  group_room M w ->
  fits_groups w g (length A) (Nat.max (ql + length Mm - 1) (length Mm)) P ->
  exists r s' rho, run true (red_mod a m) s = (Ok r, s') /\ good s' /\
    value r = Some (P mod value_of X Mm) /\
    same_on s rho (asg s) /\ sat rho s' /\ int_of rho a = P /\ int_of rho m = value_of X Mm /\
    int_of rho r = P mod value_of X Mm + value_of X Mm.
Proof.
  intros w X ql M g P G Ha Hm Hwm HA HM Hw HwN [HM0 HMP] Hfit Hq Hroom Hgr.
  pose proof (Z.mod_pos_bound P (value_of X Mm) HM0) as Hmod.
  assert (Hdiv : 1 <= P / value_of X Mm) by (apply Z.div_le_lower_bound; lia).
  destruct (top_red_mod_complete a m A Mm s G Ha Hm Hwm HA HM Hw HwN ltac:(fold w X; lia) Hq Hroom Hgr)
    as (r & s' & R & Hr & Hg & Hbr & LR & Vr).
  destruct (digits_facts w ql (P / value_of X Mm - 1) ltac:(lia)) as (LQ' & RQ' & VQ').
  destruct (digits_facts w (length Mm) (P mod value_of X Mm + value_of X Mm) ltac:(lia)) as (LR' & RR' & VR').
  set (Q' := map (digit w (P / value_of X Mm - 1)) (seq 0 ql)) in *.
  set (R' := map (digit w (P mod value_of X Mm + value_of X Mm)) (seq 0 (length Mm))) in *.
  pose proof (top_red_mod_any true a m A Mm Q' R' s r s' (asg s) (good_good_for _ G) (bignat_at_for _ _ _ Ha)
     (bignat_at_for _ _ _ Hm) Hr HA HM Hw HwN) as H. cbv zeta in H. rewrite LQ' in H. fold w X ql in H. fold M g in H.
  destruct H as (rho & H1 & H2 & H4); auto.
  - fold X in VQ', VR'. rewrite VQ', VR'. fold P. pose proof (Z.div_mod P (value_of X Mm)). lia.
  - rewrite LR'. exact Hgr.
  - exists r, s', rho. split; auto. split; auto. split; auto. split; auto. split; auto.
    assert (one : rho ONE = 1) by apply H2. pose proof (same_agree _ _ H1) as Hag.
    destruct (bignat_at_int _ _ _ _ Ha Hag one) as [_ ->].
    destruct (bignat_at_int _ _ _ _ Hm Hag one) as [_ ->]. rewrite Hwm. fold w X. split; auto. split; auto.
    unfold int_of. rewrite H4.
    assert (Hwr : limb_width (bparams r) = w).
    { refine (rets_run true _ _ (fun r => limb_width (bparams r) = w) _ _ _ Hr).
      unfold red_mod, width_agreement. rewrite Hwm. fold w. rewrite Nat.eqb_refl. cbn [lift bind].
      do 4 (apply rets_skip; intros ?; cbv zeta). apply rets_bind, rets_ns. eapply rets_mono; [apply rets_alloc_nat|]. cbv beta. intros r0 [Hr0 _].
      do 3 (apply rets_skip; intros ?). cbn [rets snd]. rewrite Hr0. reflexivity. }
    rewrite Hwr. fold X. rewrite <- VR'. reflexivity.
Qed.
Lemma top_red_mod_short a m A Mm s :
  let w := limb_width (bparams a) in
  let X := 2 ^ Z.of_nat w in
  let ql := q_limbs (n_bits_of a) (min_bits (bparams m)) w in
  good s -> bignat_at s a A -> bignat_at s m Mm ->
  limb_width (bparams m) = w -> A <> [] -> (1 <= w)%nat ->
  0 < value_of X Mm -> 2 ^ Z.of_nat (w * ql) <= value_of X A / value_of X Mm ->
  fst (run true (red_mod a m) s) = Err IoError.
Proof.
  intros w X ql G Ha Hm Hwm HA Hw HM0 Hq. apply nonempty_length in HA. pose proof (pow2_pos w) as HX.
  assert (P0 : 0 <= value_of X A) by (eapply bignat_at_nonneg; eauto; unfold X; lia).
  destruct Ha as (_ & _ & Va & Na & _). destruct Hm as (_ & _ & Vm & _).
  unfold red_mod, width_agreement. rewrite Hwm. fold w. rewrite Nat.eqb_refl. cbn [lift bind].
  rewrite (n_bits_ok a) by lia. cbn [lift bind].
  unfold quotient_limbs. rewrite (proj2 (Nat.eqb_neq w 0)) by lia. cbn [lift bind].
  fold (q_limbs (n_bits_of a) (min_bits (bparams m)) w). fold ql.
  rewrite Va, Vm, Hwm. fold w X. cbn [grab rbind]. unfold bigint_div. rewrite (proj2 (Z.eqb_neq _ 0)) by lia.
  rewrite Z.quot_div_nonneg by lia.
  assert (Hql : (1 <= ql)%nat) by (unfold ql, q_limbs; apply Nat.le_add_l).
  assert (HE : forall s, run true (alloc_from_nat (Ok (value_of X A / value_of X Mm)) w ql) s = (Err IoError, s)).
  { intros s0. apply top_alloc_from_nat_error; auto. apply Z.div_pos; lia. }
  rewrite run_bind. unfold ns at 1. cbn [run]. rewrite run_bind, HE. reflexivity.
Qed.

End Top.
