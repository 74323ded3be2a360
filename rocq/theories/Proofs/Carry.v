(** Equality after carrying. *)
From Coq Require Import ZArith Bool List Lia Setoid Morphisms ZifyBool ZifyNat.
From Verif.Model Require Import Base CS Bellpepper Util Poly Bignat.
From Verif.Spec Require Import Spec.
From Verif.Proofs Require Import Field Arith Convert Limbs Wp Lc BitNum PolyP BoolP BignatEq BignatAlloc Group.
Import ListNotations.
Local Open Scope Z_scope.

Lemma seq_mid n pre a post : seq 0 n = pre ++ a :: post -> a = length pre /\ (a < n)%nat.
Proof.
  intros H. assert (HL := f_equal (@length _) H). rewrite seq_length, app_length in HL. cbn [length] in HL.
  assert (Hn : nth (length pre) (seq 0 n) 0%nat = a) by (rewrite H, app_nth2, Nat.sub_diag; auto).
  rewrite seq_nth in Hn by lia. lia.
Qed.

(** The difference of two digit lists below position [i]. *)
Definition partial_diff (B : Z) (xs ys : list Z) (i : nat) : Z :=
  sum_n i (fun j => B ^ Z.of_nat j * (nth j xs 0 - nth j ys 0)).

Lemma partial_diff_S B xs ys i :
  partial_diff B xs ys (S i) = partial_diff B xs ys i + B ^ Z.of_nat i * (nth i xs 0 - nth i ys 0).
Proof. reflexivity. Qed.

Lemma value_of_ge B l n : (length l <= n)%nat -> value_of B l = sum_n n (fun i => nth i l 0 * B ^ Z.of_nat i).
Proof.
  intros H. rewrite value_of_sum. symmetry. apply sum_n_extend; auto.
  intros i Hi. rewrite nth_overflow by lia. ring.
Qed.
Lemma value_of_low B l n : (forall i, (n <= i)%nat -> nth i l 0 = 0) ->
  value_of B l = sum_n n (fun i => nth i l 0 * B ^ Z.of_nat i).
Proof.
  intros H. rewrite (value_of_ge B l (Nat.max n (length l))) by lia. apply sum_n_extend; [lia|].
  intros i Hi. rewrite H by lia. ring.
Qed.
Lemma partial_diff_value B xs ys n : (forall i, (n <= i)%nat -> nth i xs 0 = 0) ->
  (forall i, (n <= i)%nat -> nth i ys 0 = 0) ->
  partial_diff B xs ys n = value_of B xs - value_of B ys.
Proof.
  intros Hx Hy. rewrite (value_of_low B xs n), (value_of_low B ys n) by auto. unfold partial_diff.
  rewrite Z.sub_opp_r with (m := - _) at 1 || idtac.
  transitivity (sum_n n (fun i => nth i xs 0 * B ^ Z.of_nat i) + (-1) * sum_n n (fun i => nth i ys 0 * B ^ Z.of_nat i)); [|ring].
  rewrite sum_n_scale, sum_n_add. apply sum_n_ext. intros. ring.
Qed.

(** The constant subtracted at each limb so that carries stay non-negative. *)
Fixpoint extra_at (M base : Z) (i : nat) : Z :=
  match i with O => 0 | S i => Z.quot (extra_at M base i + M) base end.
Lemma extra_range M base i : 0 <= M -> 2 <= base -> 0 <= extra_at M base i /\ extra_at M base i * (base - 1) <= M.
Proof.
  intros HM HB. induction i; cbn [extra_at]; [nia|].
  rewrite Z.quot_div_nonneg by lia. set (e := extra_at M base i) in *.
  pose proof (Z.div_mod (e + M) base ltac:(lia)). pose proof (Z.mod_pos_bound (e + M) base ltac:(lia)).
  split; [apply Z.div_pos; lia|]. nia.
Qed.

Section Carry.
Context {E : Env} {W : Wf E}.
Context (rho : assignment) (one : rho ONE = 1).

Lemma num_alloc_swp md w (Q : num -> Prop) :
  (forall n x v, n = mkNum (lc_var x) v -> mpred md w (rho x) v -> Q n) -> swp md rho (num_alloc w) Q.
Proof. intros H. unfold num_alloc. do 2 sstep. intros x v Hm. sstep. eapply H; eauto. Qed.
Lemma num_alloc_awp md w y (Q : num -> Prop) : (md = Honest -> w = Ok y) ->
  (forall x v, rho x = y -> vpred md w y v -> Q (mkNum (lc_var x) v)) -> awp md rho (num_alloc w) [y] Q.
Proof.
  intros Hw H. unfold num_alloc. apply awp_bind_all. astep; auto. intros x v Hx Hv. astep. auto.
Qed.

Lemma nat_to_f_eqp n f : unwrap (nat_to_f n) = Ok f -> 0 <= n /\ f = fmk n.
Proof.
  rewrite nat_to_f_spec. destruct (Z.ltb_spec n 0); cbn [unwrap]; intros G; [discriminate|].
  injection G as <-. auto.
Qed.
Lemma nat_to_f_unwrap n : 0 <= n -> unwrap (nat_to_f n) = Ok (fmk n).
Proof. intros H. now rewrite nat_to_f_nonneg. Qed.

(** ** Soundness *)
Definition carry_at (M base : Z) (xs ys : list Z) (i : nat) : Z :=
  extra_at M base i + partial_diff base xs ys i / base ^ Z.of_nat i.

Definition cinv (xs ys : list Z) (M base : Z) (cb n : nat) (i : nat) (s : Z * num) : Prop :=
  exists g, eqp (lc_eval rho (n_lc (snd s))) g /\
    partial_diff base xs ys i = base ^ Z.of_nat i * (g - fst s) /\
    0 <= fst s <= Z.max 0 M /\
    ((i < n)%nat -> 0 <= g < 2 ^ Z.of_nat cb) /\
    ((1 <= i)%nat -> i = n -> g = fst s) /\ fst s = extra_at M base i /\
    (forall j, (j <= i)%nat -> (j < n)%nat -> 0 <= carry_at M base xs ys j < 2 ^ Z.of_nat cb).

Lemma cinv_carry M base xs ys i g : 2 <= base ->
  partial_diff base xs ys i = base ^ Z.of_nat i * (g - extra_at M base i) -> carry_at M base xs ys i = g.
Proof.
  intros HB H. unfold carry_at. rewrite H, Z.mul_comm, Z.div_mul; [lia|].
  pose proof (Z.pow_pos_nonneg base (Z.of_nat i)). lia.
Qed.

Lemma carry_step_swp md a b n M base cb xs ys i s :
  ev rho (limbs a) xs -> ev rho (limbs b) ys ->
  0 <= nth i xs 0 <= M -> 0 <= nth i ys 0 <= M -> 2 <= base ->
  2 ^ Z.of_nat (width1 cb) + 2 * M <= modulus -> base * 2 ^ Z.of_nat (width1 cb) <= modulus ->
  (i < n)%nat -> cinv xs ys M base (width1 cb) n i s ->
  swp md rho (carry_step a b n M base cb s i) (cinv xs ys M base (width1 cb) n (S i)).
Proof.
  intros Ha Hb Hx Hy HB H1 H2 Hi (g & G1 & G2 & G3 & G4 & _ & G6 & G7). destruct s as [e carry]. cbn [fst snd] in *.
  assert (HM : 0 <= M) by lia. specialize (G4 Hi). rewrite Z.max_r in G3 by auto.
  unfold carry_step. do 2 sstep. apply num_alloc_swp. intros c x v -> _.
  do 2 sstep. intros fmw Hfmw. apply nat_to_f_eqp in Hfmw. destruct Hfmw as [_ ->].
  do 2 sstep. intros fb Hfb. apply nat_to_f_eqp in Hfb. destruct Hfb as [_ ->].
  do 2 sstep. intros fe Hfe. apply nat_to_f_eqp in Hfe. destruct Hfe as [_ ->].
  do 2 sstep. intros Hc. repeat (progress lcs_in Hc). do 2 rewrite lc_eval_const in Hc by exact one. lcs_in Hc.
  pose proof (ev_nth rho _ _ i Ha) as Hxi. pose proof (ev_nth rho _ _ i Hb) as Hyi.
  cbn [n_lc] in *. lcs_in Hc. rewrite G1, Hxi, Hyi, !eqp_fmk in Hc.
  rewrite Z.rem_mod_nonneg in Hc by lia.
  assert (HE : extra_at M base (S i) = (e + M) / base) by (cbn [extra_at]; rewrite <- G6; apply Z.quot_div_nonneg; lia).
  rewrite Z.quot_div_nonneg by lia.
  pose proof (Z.div_mod (e + M) base ltac:(lia)) as Hdm.
  pose proof (Z.mod_pos_bound (e + M) base ltac:(lia)) as Hmb.
  set (e' := (e + M) / base) in *. set (r := (e + M) mod base) in *.
  set (X := nth i xs 0) in *. set (Y := nth i ys 0) in *.
  assert (He' : 0 <= e' <= M) by nia.
  assert (Fin : forall c, eqp (rho x) c -> g + X - Y + M = base * c + r ->
     partial_diff base xs ys (S i) = base ^ Z.of_nat (S i) * (c - e')).
  { intros c _ Hcc. rewrite partial_diff_S, G2, pow_S. fold X Y.
    replace (g - e) with (base * (c - e') - (X - Y)) by lia. ring. }
  pose proof (pow2_pos (width1 cb)).
  sstep. destruct (Nat.ltb_spec i (n - 1)).
  - sstep. eapply swp_mono; [apply fits_in_bits_swp; auto|]. intros u (bs & Hbl & Hbe).
    cbn [n_lc] in Hbe. lcs_in Hbe. pose proof (bits_value_bound bs) as Bb. rewrite Hbl in Bb.
    set (c := bits_value bs) in *. rewrite Hbe in Hc.
    assert (Heq : g + X - Y + M = base * c + r).
    { apply eqp_small; [| |].
      - apply (proj1 (eqp_sub_0 _ _)). rewrite <- Hc. apply eqp_ring. ring.
      - lia.
      - nia. }
    sstep. exists c. cbn [fst snd n_lc]. lcs. split; auto. split; [auto|]. split; [lia|].
    split; [auto|]. split; [lia|]. split; [auto|]. intros j Hj Hjn. destruct (Nat.eq_dec j (S i)) as [->|]; [|apply G7; lia].
    rewrite (cinv_carry M base xs ys (S i) c); auto. rewrite HE. apply Fin; auto.
  - do 2 sstep. intros fx Hfx. apply nat_to_f_eqp in Hfx. destruct Hfx as [_ ->].
    sstep. intros Hl. lcs_in Hl. rewrite lc_eval_const, eqp_fmk in Hl by auto. cbn [n_lc] in Hl. lcs_in Hl.
    apply (proj1 (eqp_sub_0 _ _)) in Hl. rewrite Hl in Hc.
    assert (Heq : g + X - Y + M = base * e' + r).
    { apply eqp_small; [| |].
      - apply (proj1 (eqp_sub_0 _ _)). rewrite <- Hc. apply eqp_ring. ring.
      - lia.
      - lia. }
    sstep. exists e'. cbn [fst snd n_lc]. lcs. split; auto. split; [auto|]. split; [lia|].
    split; [lia|]. split; [auto|]. split; [auto|]. intros j Hj Hjn. apply G7; lia.
Qed.

Lemma equal_when_carried_swp md a b xs ys :
  let w := limb_width (bparams a) in
  let M := Z.max (max_word (bparams a)) (max_word (bparams b)) in
  let cb := width1 (carry_bits_f64 M w) in
  ev rho (limbs a) xs -> ev rho (limbs b) ys ->
  Forall (fun d => 0 <= d <= max_word (bparams a)) xs ->
  Forall (fun d => 0 <= d <= max_word (bparams b)) ys -> (1 <= w)%nat ->
  2 ^ Z.of_nat cb + 2 * M <= modulus -> 2 ^ Z.of_nat w * 2 ^ Z.of_nat cb <= modulus ->
  swp md rho (equal_when_carried a b) (fun _ =>
    value_of (2 ^ Z.of_nat w) xs = value_of (2 ^ Z.of_nat w) ys /\
    (forall i, (Nat.min (length xs) (length ys) <= i)%nat -> nth i xs 0 = 0 /\ nth i ys 0 = 0) /\
    limb_width (bparams a) = limb_width (bparams b) /\
    forall i, (i < Nat.min (length xs) (length ys))%nat -> 0 <= carry_at M (2 ^ Z.of_nat w) xs ys i < 2 ^ Z.of_nat cb).
Proof.
  intros w M cb Ha Hb HX HY Hw H1 H2. unfold equal_when_carried.
  do 2 sstep. intros w' Hw'. unfold width_agreement in Hw'.
  destruct (Nat.eqb_spec (limb_width (bparams a)) (limb_width (bparams b))); [|discriminate].
  injection Hw' as <-. fold w. fold M. rewrite Z.shiftl_mul_pow2, Z.mul_1_l by lia.
  set (base := 2 ^ Z.of_nat w) in *.
  assert (HB : 2 <= base) by (change 2 with (2 ^ Z.of_nat 1); now apply pow2_le).
  rewrite (ev_length _ _ _ Ha), (ev_length _ _ _ Hb). set (n := Nat.min (length xs) (length ys)).
  assert (RX : forall i, (i < length xs)%nat -> 0 <= nth i xs 0 <= M).
  { intros i Hi. rewrite Forall_forall in HX. specialize (HX _ (nth_In _ 0 Hi)). lia. }
  assert (RY : forall i, (i < length ys)%nat -> 0 <= nth i ys 0 <= M).
  { intros i Hi. rewrite Forall_forall in HY. specialize (HY _ (nth_In _ 0 Hi)). lia. }
  sstep. apply (swp_foldM _ _ _ (fun pre s => cinv xs ys M base cb n (length pre) s) (seq 0 n) []).
  { exists 0. cbn [fst snd n_lc]. lcs. split; [reflexivity|]. split; [cbn; ring|]. split; [lia|].
    pose proof (pow2_pos cb). split; [lia|]. split; [cbn; lia|]. split; [reflexivity|].
    intros j Hj _. replace j with 0%nat by (cbn in Hj; lia). unfold carry_at. cbn. lia. }
  { intros pre i post s Hs HI. cbn [app] in Hs. apply seq_mid in Hs. destruct Hs as [-> Hi].
    rewrite app_length, Nat.add_1_r. apply carry_step_swp; auto; [apply RX|apply RY]; lia. }
  intros s HI. cbn [app] in HI. rewrite seq_length in HI. destruct HI as (g & _ & G2 & _ & _ & G5 & _ & G7).
  assert (HD : partial_diff base xs ys n = 0).
  { destruct (Nat.eq_dec n 0) as [->|Hn]; [reflexivity|]. rewrite G2, G5 by lia. ring. }
  pose proof (pow2_pos cb).
  sstep. apply (swp_iterM _ _ _ (fun i => nth i xs 0 = 0)).
  { intros i Hi. apply in_seq in Hi. sstep. intros Hz. rewrite (ev_nth rho _ _ i Ha) in Hz.
    specialize (RX i ltac:(lia)). apply (canon_eq0 (nth i xs 0)); auto. red. lia. }
  intros HX0. apply (swp_iterM _ _ _ (fun i => nth i ys 0 = 0)).
  { intros i Hi. apply in_seq in Hi. sstep. intros Hz. rewrite (ev_nth rho _ _ i Hb) in Hz.
    specialize (RY i ltac:(lia)). apply (canon_eq0 (nth i ys 0)); auto. red. lia. }
  intros HY0. assert (HV := partial_diff_value base xs ys n). rewrite HD in HV.
  assert (ZX : forall i, (n <= i)%nat -> nth i xs 0 = 0).
  { intros i Hi. destruct (Nat.lt_ge_cases i (length xs)); [|now apply nth_overflow].
    apply HX0, in_seq. lia. }
  assert (ZY : forall i, (n <= i)%nat -> nth i ys 0 = 0).
  { intros i Hi. destruct (Nat.lt_ge_cases i (length ys)); [|now apply nth_overflow].
    apply HY0, in_seq. lia. }
  split; [|split; [auto|split; [auto|intros i Hi; apply G7; lia]]]. enough (0 = value_of base xs - value_of base ys) by lia. apply HV; auto.
Qed.

(** ** Completeness *)
Definition carry_aux (M base : Z) (cb n : nat) (xs ys : list Z) : list Z :=
  flat_map (fun i => carry_at M base xs ys (S i) ::
     (if (i <? n - 1)%nat then fits_aux (carry_at M base xs ys (S i)) cb else [])) (seq 0 n).

Lemma partial_diff_divides base xs ys n : 1 <= base -> partial_diff base xs ys n = 0 ->
  forall i, (i <= n)%nat -> (base ^ Z.of_nat i | partial_diff base xs ys i).
Proof.
  intros HB H i Hi. remember (n - i)%nat as k eqn:Hk. revert i Hi Hk. induction k; intros i Hi Hk.
  - replace i with n by lia. rewrite H. apply Z.divide_0_r.
  - specialize (IHk (S i) ltac:(lia) ltac:(lia)). rewrite partial_diff_S, pow_S in IHk.
    destruct IHk as [q Hq]. exists (q * base - (nth i xs 0 - nth i ys 0)).
    rewrite Z.mul_sub_distr_r. lia.
Qed.

(** The recurrence of carries. *)
Lemma carry_rec M base xs ys n i : 2 <= base -> 0 <= M -> partial_diff base xs ys n = 0 -> (i < n)%nat ->
  carry_at M base xs ys i + nth i xs 0 - nth i ys 0 + M =
  base * carry_at M base xs ys (S i) + Z.rem (extra_at M base i + M) base.
Proof.
  intros HB HM H Hi. unfold carry_at. cbn [extra_at].
  destruct (partial_diff_divides base xs ys n ltac:(lia) H i ltac:(lia)) as [q Hq].
  destruct (partial_diff_divides base xs ys n ltac:(lia) H (S i) ltac:(lia)) as [q' Hq'].
  pose proof (Z.pow_pos_nonneg base (Z.of_nat i) ltac:(lia) ltac:(lia)) as HP.
  pose proof (Z.pow_pos_nonneg base (Z.of_nat (S i)) ltac:(lia) ltac:(lia)) as HP'.
  assert (Hr : q' * base = q + (nth i xs 0 - nth i ys 0)).
  { apply (Z.mul_reg_r _ _ (base ^ Z.of_nat i)); [lia|]. rewrite partial_diff_S, Hq, pow_S in Hq'.
    rewrite Z.mul_add_distr_r. lia. }
  rewrite Hq, Hq', !Z.div_mul by lia.
  pose proof (Z.quot_rem' (extra_at M base i + M) base) as Q. lia.
Qed.

Lemma carry_bounds M base xs ys n C : 2 <= base -> 0 <= M -> partial_diff base xs ys n = 0 ->
  (forall i, (i < n)%nat -> 0 <= nth i xs 0 <= M) -> (forall i, (i < n)%nat -> 0 <= nth i ys 0 <= M) ->
  2 * M <= (base - 1) * C -> 1 <= C -> forall i, (i <= n)%nat -> 0 <= carry_at M base xs ys i < C.
Proof.
  intros HB HM H HX HY HC HC1 i. induction i; intros Hi.
  - unfold carry_at. cbn. lia.
  - specialize (IHi ltac:(lia)). pose proof (carry_rec M base xs ys n i HB HM H ltac:(lia)) as R.
    specialize (HX i ltac:(lia)). specialize (HY i ltac:(lia)).
    destruct (extra_range M base i HM HB) as [He _].
    rewrite Z.rem_mod_nonneg in R by lia.
    pose proof (Z.mod_pos_bound (extra_at M base i + M) base ltac:(lia)) as Hm.
    set (c' := carry_at M base xs ys (S i)) in *. set (c := carry_at M base xs ys i) in *.
    set (r := (extra_at M base i + M) mod base) in *.
    split; nia.
Qed.

Lemma carry_last M base xs ys n : partial_diff base xs ys n = 0 ->
  carry_at M base xs ys n = extra_at M base n.
Proof. intros H. unfold carry_at. rewrite H, Zdiv_0_l. ring. Qed.

Lemma equal_when_carried_awp' md a b xs ys :
  let w := limb_width (bparams a) in
  let M := Z.max (max_word (bparams a)) (max_word (bparams b)) in
  let cb := carry_bits_f64 M w in
  let base := 2 ^ Z.of_nat w in
  let n := Nat.min (length xs) (length ys) in
  limb_width (bparams a) = limb_width (bparams b) ->
  ev rho (limbs a) xs -> ev rho (limbs b) ys ->
  Forall (fun d => 0 <= d <= max_word (bparams a)) xs ->
  Forall (fun d => 0 <= d <= max_word (bparams b)) ys -> (1 <= w)%nat ->
  (forall i, (n <= i)%nat -> nth i xs 0 = 0 /\ nth i ys 0 = 0) ->
  value_of base xs = value_of base ys -> 
  (forall i, (i < n)%nat -> 0 <= carry_at M base xs ys i < 2 ^ Z.of_nat (width1 cb)) ->
  (md = Honest -> limb_values a = Some xs /\ limb_values b = Some ys /\ 
     Forall canon xs /\ Forall canon ys /\ (width1 cb <= CAPACITY)%nat /\ canon (extra_at M base n)) ->
  awp md rho (equal_when_carried a b) (carry_aux M base cb n xs ys) (fun _ => True).
Proof.
  intros w M cb base n HW Ha Hb HX HY Hw Hz HV HC Hh. unfold equal_when_carried.
  apply awp_bind_nil. eapply awp_lift.
  { unfold width_agreement. rewrite HW, Nat.eqb_refl. reflexivity. }
  fold w in HW. rewrite <- HW. fold M. rewrite Z.shiftl_mul_pow2, Z.mul_1_l by lia. fold base. fold cb.
  assert (HB : 2 <= base) by (change 2 with (2 ^ Z.of_nat 1); now apply pow2_le).
  rewrite (ev_length _ _ _ Ha), (ev_length _ _ _ Hb). fold n.
  assert (RX : forall i, (i < n)%nat -> 0 <= nth i xs 0 <= M).
  { intros i Hi. rewrite Forall_forall in HX. assert (Hin : In (nth i xs 0) xs) by (apply nth_In; lia). specialize (HX _ Hin). cbv beta in HX. lia. }
  assert (RY : forall i, (i < n)%nat -> 0 <= nth i ys 0 <= M).
  { intros i Hi. rewrite Forall_forall in HY. assert (Hin : In (nth i ys 0) ys) by (apply nth_In; lia). specialize (HY _ Hin). cbv beta in HY. lia. }
  assert (HD : partial_diff base xs ys n = 0).
  { rewrite partial_diff_value; [lia| |]; intros i Hi; apply Hz; auto. }
  pose proof (pow2_ge1 (width1 cb)) as HC1.
  apply awp_bind_all.
  apply (awp_foldM _ _ _ _ (fun pre s => fst s = extra_at M base (length pre) /\
     eqp (lc_eval rho (n_lc (snd s))) (carry_at M base xs ys (length pre)) /\
     (md = Honest -> n_val (snd s) = Some (carry_at M base xs ys (length pre)))) (seq 0 n) []).
  { cbn [fst snd n_lc length n_val]. unfold carry_at. cbn. repeat split; try reflexivity. }
  { intros pre i post [e carry] Hs (I1 & I2 & I3). cbn [app] in Hs. apply seq_mid in Hs. destruct Hs as [-> Hi].
    cbn [fst snd] in *. subst e. rewrite app_length, Nat.add_1_r. cbn [length]. set (i := length pre) in *.
    assert (HM : 0 <= M) by (specialize (RX i Hi); lia).
    pose proof (carry_rec M base xs ys n i HB HM HD Hi) as R.
    destruct (extra_range M base i HM HB) as [He _].
    set (c := carry_at M base xs ys i) in *. set (c' := carry_at M base xs ys (S i)) in *.
    assert (Bc : 0 <= c < 2 ^ Z.of_nat (width1 cb)) by (apply HC; lia).
    assert (Hc'n : S i = n -> c' = extra_at M base n) by (intros Hn; unfold c'; rewrite Hn; now apply carry_last).
    destruct (extra_range M base n HM HB) as [Hen _].
    assert (Bc' : 0 <= c' /\ ((S i < n)%nat -> c' < 2 ^ Z.of_nat (width1 cb))).
    { destruct (Nat.eq_dec (S i) n) as [Hn|]; [rewrite (Hc'n Hn); lia|]. pose proof (HC (S i) ltac:(lia)). unfold c'. lia. }
    assert (Hcan : md = Honest -> canon c /\ canon c').
    { intros Hm. destruct (Hh Hm) as (_ & _ & _ & _ & Hcap & Hex).
      pose proof modulus_bits as [Hmod _]. pose proof (pow2_le _ _ Hcap). 
      destruct (Nat.eq_dec (S i) n) as [Hn|]; [rewrite (Hc'n Hn); split; auto|]; unfold canon in *; lia. }
    unfold carry_step. apply (awp_bind _ _ _ _ _ [c']). astep. apply num_alloc_awp.
    { intros Hm. destruct (Hh Hm) as (La & Lb & Cx & Cy & Hcap & Hex). destruct (Hcan Hm) as [Cc Cc'].
      unfold carry_witness. rewrite La, (I3 Hm). cbn [grab rbind unwrap]. unfold idx.
      rewrite (nth_error_nth' xs 0) by lia. cbn [unwrap rbind]. rewrite Lb. cbn [grab rbind].
      rewrite (nth_error_nth' ys 0) by lia. cbn [unwrap rbind].
      rewrite !f_to_nat_canon by (auto; apply (nth_range canon); auto using canon_0).
      replace (nth i xs 0 + c + M - nth i ys 0) with (base * c' + Z.rem (extra_at M base i + M) base) by lia.
      rewrite Z.rem_mod_nonneg by lia.
      pose proof (Z.mod_pos_bound (extra_at M base i + M) base ltac:(lia)) as Hmb.
      rewrite Z.quot_div_nonneg by nia. 
      rewrite Z.mul_comm, Z.div_add_l, Z.div_small, Z.add_0_r by lia.
      rewrite nat_to_f_unwrap by lia. f_equal. now apply fmk_id. }
    intros x v Hx Hv. 
    assert (Hvm : md = Honest -> v = Some c') by (intros ->; exact Hv).
    apply awp_bind_nil. eapply awp_lift; [now apply nat_to_f_unwrap|].
    apply awp_bind_nil. eapply awp_lift; [apply nat_to_f_unwrap; lia|].
    apply awp_bind_nil. eapply awp_lift; [apply nat_to_f_unwrap; apply Z.rem_nonneg; lia|].
    apply awp_bind_nil. astep.
    { repeat (progress lcs). do 2 rewrite lc_eval_const by auto. cbn [n_lc]. lcs. rewrite Hx, I2, !eqp_fmk.
      rewrite (ev_nth rho _ _ i Ha), (ev_nth rho _ _ i Hb). apply eqp_ring. lia. }
    apply awp_bind_all. destruct (Nat.ltb_spec i (n - 1)).
    - astep. eapply awp_mono; [apply (fits_in_bits_awp rho one md _ cb c'); [| |]|].
      + cbn [n_lc]. lcs. now rewrite Hx.
      + split; [apply Bc'|apply Bc'; lia].
      + intros Hm. cbn [n_val]. split; auto. split; [apply Hcan, Hm|].
        destruct (Hh Hm) as (_ & _ & _ & _ & Hcap & Hex). unfold width1 in Hcap. rewrite num_bits_S. lia.
      + intros u _. cbv beta. astep. cbn [fst snd n_lc n_val]. lcs. rewrite Hx. repeat split; auto. reflexivity.
    - apply awp_bind_nil. eapply awp_lift; [apply nat_to_f_unwrap; apply (extra_range M base (S i) HM HB)|].
      assert (Hn : S i = n) by lia.
      assert (Hl : c' = extra_at M base (S i)) by (unfold c'; rewrite Hn; now apply carry_last).
      astep.
      + lcs. rewrite lc_eval_const by auto. cbn [n_lc]. lcs. rewrite Hx, eqp_fmk, Hl. cbn [extra_at].
        apply eqp_ring. ring.
      + astep. cbn [fst snd n_lc n_val]. lcs. rewrite Hx. repeat split; auto. reflexivity. }
  intros s _. apply awp_bind_nil. apply awp_iterM_nil.
  { intros i Hi. apply in_seq in Hi. astep; auto. rewrite (ev_nth rho _ _ i Ha).
    destruct (Hz i ltac:(lia)) as [-> _]. reflexivity. }
  apply awp_iterM_nil; auto. intros i Hi. apply in_seq in Hi. astep; auto. rewrite (ev_nth rho _ _ i Hb).
  destruct (Hz i ltac:(lia)) as [_ ->]. reflexivity.
Qed.


Lemma equal_when_carried_awp md a b xs ys :
  let w := limb_width (bparams a) in
  let M := Z.max (max_word (bparams a)) (max_word (bparams b)) in
  let cb := carry_bits_f64 M w in
  let base := 2 ^ Z.of_nat w in
  let n := Nat.min (length xs) (length ys) in
  limb_width (bparams a) = limb_width (bparams b) ->
  ev rho (limbs a) xs -> ev rho (limbs b) ys ->
  Forall (fun d => 0 <= d <= max_word (bparams a)) xs ->
  Forall (fun d => 0 <= d <= max_word (bparams b)) ys -> (1 <= w)%nat ->
  (forall i, (n <= i)%nat -> nth i xs 0 = 0 /\ nth i ys 0 = 0) ->
  value_of base xs = value_of base ys -> 
  2 * M <= (base - 1) * 2 ^ Z.of_nat (width1 cb) ->
  (md = Honest -> limb_values a = Some xs /\ limb_values b = Some ys /\ 
     Forall canon xs /\ Forall canon ys /\ (width1 cb <= CAPACITY)%nat) ->
  awp md rho (equal_when_carried a b) (carry_aux M base cb n xs ys) (fun _ => True).
Proof.
  intros w M cb base n HW Ha Hb HX HY Hw Hz HV HC Hh.
  assert (HB : 2 <= base) by (change 2 with (2 ^ Z.of_nat 1); now apply pow2_le).
  assert (RX : forall i, (i < n)%nat -> 0 <= nth i xs 0 <= M).
  { intros i Hi. rewrite Forall_forall in HX. assert (Hin : In (nth i xs 0) xs) by (apply nth_In; lia). specialize (HX _ Hin). cbv beta in HX. lia. }
  assert (RY : forall i, (i < n)%nat -> 0 <= nth i ys 0 <= M).
  { intros i Hi. rewrite Forall_forall in HY. assert (Hin : In (nth i ys 0) ys) by (apply nth_In; lia). specialize (HY _ Hin). cbv beta in HY. lia. }
  assert (HD : partial_diff base xs ys n = 0).
  { rewrite partial_diff_value; [lia| |]; intros i Hi; apply Hz; auto. }
  pose proof (pow2_ge1 (width1 cb)) as HC1.
  assert (Bd : forall i, (i <= n)%nat -> (0 < n)%nat -> 0 <= carry_at M base xs ys i < 2 ^ Z.of_nat (width1 cb)).
  { intros i Hi Hn. assert (HM : 0 <= M) by (specialize (RX 0%nat Hn); lia).
    now apply (carry_bounds M base xs ys n (2 ^ Z.of_nat (width1 cb)) HB HM HD RX RY HC HC1). }
  apply equal_when_carried_awp'; auto.
  - fold base n M cb. intros i Hi. apply Bd; lia.
  - intros Hm. destruct (Hh Hm) as (La & Lb & Cx & Cy & Hcap). repeat (split; [assumption|]).
    change (canon (extra_at M base n)).
    destruct (Nat.eq_dec n 0) as [->|Hn]; [apply canon_0|]. rewrite <- (carry_last M base xs ys n HD).
    pose proof modulus_bits as [Hmod _]. pose proof (pow2_le _ _ Hcap). specialize (Bd n ltac:(lia) ltac:(lia)). unfold canon. lia.
Qed.

End Carry.
