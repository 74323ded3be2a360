(** Difficulty update: honest runs and alternative assignments. *)
From Coq Require Import ZArith Znumtheory Bool String List Lia Setoid Morphisms ZifyBool ZifyNat.
From Verif.Model Require Import Base CS Bellpepper Util Poly Bignat Ints Median Difficulty.
From Verif.Spec Require Import Spec.
From Verif.Proofs Require Import Field Arith Convert Limbs Wp Lc BitNum PolyP BoolP BignatEq BignatAlloc Group Carry Regroup
  Mult MultC PureOps TopBignat1 TopBignat2 Owp Room TopBignat4 Pwp MedianP MedianV.
Import ListNotations.
Local Open Scope string_scope.
Local Open Scope Z_scope.
Local Open Scope list_scope.

Section Difficulty.
Context {E : Env} {W : Wf E}.

(** ** Arithmetic *)
Definition digits64 (n : nat) (v : Z) : list Z := map (digit 64 v) (seq 0 n).

Lemma span_check t : canon t -> 2 ^ 35 < modulus ->
  ((fsub (fadd (fmk 302400) (fmk (2 ^ 33))) t <? 2 ^ 33) && (fsub (fadd t (fmk (2 ^ 33))) (fmk 4838400) <? 2 ^ 33))%bool =
  ((302400 <? t) && (t <? 4838400))%bool.
Proof.
  intros C HP. pose proof (fmk_id t C) as HF.
  replace (fsub (fadd (fmk 302400) (fmk (2 ^ 33))) t) with (fsub (fadd (fmk 302400) (fmk (2 ^ 33))) (fmk t)) by now rewrite HF.
  replace (fadd t (fmk (2 ^ 33))) with (fadd (fmk t) (fmk (2 ^ 33))) by now rewrite HF. pose proof C as [C1 C2].
  pose proof (cmp_int 32 302400 t) as L. pose proof (cmp_int 32 t 4838400) as U.
  change (Z.of_nat 32 + 1) with 33 in *. change (Z.of_nat (1 + 32)) with 33 in *.
  destruct (Z.lt_ge_cases (302400 + 2 ^ 33) t) as [H|H].
  - assert (HL : fsub (fadd (fmk 302400) (fmk (2 ^ 33))) (fmk t) = 302400 + 2 ^ 33 - t + modulus).
    { apply canon_eqp; [apply fsub_canon|split; lia|]. unfold fsub, fadd. rewrite !eqp_fmk.
      rewrite eqp_eq. replace (302400 + 2 ^ 33 - t + modulus) with (302400 + 2 ^ 33 - t + 1 * modulus) by ring. unfold fmk. now rewrite Z.mod_add by lia. }
    destruct (Z.lt_ge_cases t (modulus - 2 ^ 33)) as [K|K].
    + rewrite U by lia. replace (t <? 4838400) with false by lia. now rewrite !andb_false_r.
    + rewrite HL. replace (302400 + 2 ^ 33 - t + modulus <? 2 ^ 33) with false by lia.
      replace (t <? 4838400) with false by lia. now rewrite andb_false_r.
  - rewrite L by lia. rewrite U by lia. reflexivity.
Qed.

(** The word bound of the grouped comparison in [calculate_difficulty_update]. *)
Definition calc_word : Z := Z.max (product_word 4 (2 ^ Z.of_nat 64 - 1) 1 (2 ^ Z.of_nat 64 - 1)) (product_word 5 (2 ^ Z.of_nat 64 - 1) 1 (2 ^ Z.of_nat 128 - 1) + (2 ^ Z.of_nat 64 - 1)).
Definition verify_word : Z := Z.max (product_word 4 (2 ^ Z.of_nat 64 - 1) 2 (2 ^ Z.of_nat 64 - 1)) (product_word 6 (2 ^ Z.of_nat 64 - 1) 2 (2 ^ Z.of_nat 64 - 1) + (2 ^ Z.of_nat 64 - 1)).

Lemma calc_room : (194 <= CAPACITY <= 255)%nat -> exact_carries calc_word 64 ->
  group_no_wrap calc_word 64 /\ group_room calc_word 64 /\ group_size calc_word 64 = 1%nat.
Proof.
  intros HC HX. assert (HM : calc_word = (2 ^ Z.of_nat 64 - 1) * 2 ^ 128) by reflexivity.
  assert (HG : group_size calc_word 64 = 1%nat).
  { unfold group_size. destruct HX as [-> _]. change (carry_bits_exact calc_word 64) with 129%nat.
    pose proof (Nat.div_mod (CAPACITY - 129) 64 ltac:(lia)). pose proof (Nat.mod_upper_bound (CAPACITY - 129) 64 ltac:(lia)). lia. }
  rewrite HM in HX. destruct (room_of_T 64 (2 ^ 128)) as [H1 H2]; [lia|lia| | |exact HX|].
  - intros cb H1 H2. assert (Hcb : (cb < 129)%nat).
    { destruct (Nat.lt_ge_cases cb 129) as [|C]; auto. exfalso. apply Nat2Z.inj_le in C. pose proof (Z.pow_le_mono_r 2 _ _ eq_refl C) as K.
      change (2 ^ Z.of_nat 129) with (2 * 2 ^ 128) in K. lia. }
    assert (K : 2 ^ Z.of_nat cb <= 2 ^ 128) by (apply Z.pow_le_mono_r; lia). change (Z.of_nat 64) with 64 in *. lia.
  - assert (2 ^ 193 <= 2 ^ Z.of_nat CAPACITY) by (apply Z.pow_le_mono_r; lia). change (Z.of_nat 64) with 64. lia.
  - rewrite <- HM in H1, H2. auto.
Qed.
Lemma verify_room : (194 <= CAPACITY <= 255)%nat -> exact_carries verify_word 64 ->
  group_no_wrap verify_word 64 /\ group_room verify_word 64 /\ group_size verify_word 64 = 2%nat.
Proof.
  intros HC HX. assert (HG : group_size verify_word 64 = 2%nat).
  { unfold group_size. destruct HX as [-> _]. change (carry_bits_exact verify_word 64) with 66%nat.
    pose proof (Nat.div_mod (CAPACITY - 66) 64 ltac:(lia)). pose proof (Nat.mod_upper_bound (CAPACITY - 66) 64 ltac:(lia)). lia. }
  destruct (top_room_mod 64 4 2 6 2) as [H1 H2]; try lia; try exact HX; [|auto].
  assert (K : 2 ^ 194 <= 2 ^ Z.of_nat CAPACITY) by (apply Z.pow_le_mono_r; lia). eapply Z.le_trans; [|exact K]. discriminate.
Qed.

Section Rho.
Variable rho : assignment.
Hypothesis one : rho ONE = 1.

(** ** Host comparisons *)
Lemma lt_u_hwp nm a b x y : is_an rho a x -> is_an rho b y -> (32 < NUM_BITS)%nat ->
  hwp rho (lt_u nm a b 32) (fun r => r = (fsub (fadd x (fmk (2 ^ 33))) y <? 2 ^ 33)).
Proof.
  intros Ha Hb HN. unfold lt_u. do 3 hstep.
  eapply hwp_mono; [apply (less_than_hwp rho one a b 32 x y _ Ha Hb (zero_shift_low 32 ltac:(lia)) HN)|].
  cbv beta. intros r [Hv _]. hstep; [rewrite Hv; reflexivity|]. reflexivity.
Qed.
Lemma lt_u_pwp {B} md nm a b ys (f : bool -> prog B) Q : md <> Honest ->
  (forall r, pwp md rho (f r) ys Q) -> pwp md rho (bind (lt_u nm a b 32) f) (cmp_aux true ++ ys) Q.
Proof.
  intros Hmd H. apply pwp_bind. unfold lt_u. rewrite <- (app_nil_r (cmp_aux true)).
  eapply pwp_step; [apply (less_than_awp rho one md a b 32 true Hmd)|]. intros r _.
  apply pwp_lift. auto.
Qed.

Lemma an_u_hwp nm v : hwp rho (an_u nm (Ok (from_u64 v))) (fun a => is_an rho a (fmk v)).
Proof.
  unfold an_u. do 2 hstep. eapply an_alloc_hwp; [reflexivity|]. intros x Hx. apply is_an_mk; auto. apply fmk_canon.
Qed.

(** ** from_num on integers *)
Lemma from_num_int_awp md n w k v x : 0 <= x < 2 ^ Z.of_nat (w * k) -> (w < NUM_BITS)%nat -> (1 <= k)%nat ->
  eqp (lc_eval rho (n_lc n)) v -> eqp v x -> (md = Honest -> n_val n = Some x /\ canon x) ->
  let D := map (digit w x) (seq 0 k) in
  awp md rho (from_num n w k) (D ++ flat_map (fun y => map Z.b2z (bits_of w y)) D)
    (fun b => is_bn rho md b D /\ bparams b = params_new w k /\ in_word b D /\ value_of (2 ^ Z.of_nat w) D = x).
Proof.
  intros Hx Hw Hk He Hv Hh D. destruct (digits_facts w k x Hx) as (D1 & D2 & D3). fold D in D1, D2, D3.
  eapply awp_mono; [apply (from_num_awp rho one md n w k D); auto|].
  - rewrite He, Hv, D3. reflexivity.
  - intros Hm. split; auto. destruct (Hh Hm) as [H1 H2]. exists x. auto.
  - cbv beta. intros b [B1 B2]. split; auto. split; auto. split; auto.
    unfold in_word. rewrite B2, params_word. eapply Forall_impl; [|exact D2]. cbv beta. lia.
Qed.

(** ** mult_mod on integers *)
Lemma mult_mod_int_awp md a b m A B Mm ql q r :
  let w := limb_width (bparams a) in
  let X := 2 ^ Z.of_nat w in
  let P := value_of X A * value_of X B in
  let Q := map (digit w q) (seq 0 ql) in
  let R := map (digit w r) (seq 0 (List.length Mm)) in
  let M := Z.max (product_word (List.length A) (max_word (bparams a)) (List.length B) (max_word (bparams b)))
     (product_word ql (X - 1) (List.length Mm) (max_word (bparams m)) + (X - 1)) in
  limb_width (bparams b) = w -> (md = Honest -> limb_width (bparams m) = w \/ length Mm = 1%nat) ->
  is_bn rho md a A -> is_bn rho md b B -> is_bn rho md m Mm ->
  in_word a A -> in_word b B -> in_word m Mm ->
  (1 <= w)%nat -> (w < NUM_BITS)%nat -> (1 <= length A)%nat -> (1 <= length B)%nat -> (1 <= length Mm)%nat ->
  ql = q_limbs (n_bits_of a + n_bits_of b) (min_bits (bparams m)) w ->
  0 <= q < 2 ^ Z.of_nat (w * ql) -> 0 <= r < 2 ^ Z.of_nat (w * length Mm) ->
  P = q * value_of X Mm + r -> (md = Honest -> r < value_of X Mm) ->
  group_room M w -> sides_zero M w (convs A B) (rsum (convs Q Mm) R) ->
  awp md rho (mult_mod a b m) (range_aux w Q ++ range_aux w R ++ mod_aux w M (convs A B) (convs Q Mm) R) (fun qr =>
    is_bn rho md (fst qr) Q /\ in_word (fst qr) Q /\ bparams (fst qr) = params_new w ql /\ value_of X Q = q).
Proof.
  intros w X P Q R M W1 W2 Ha Hb Hm Wa Wb Wm Hw Hw' LA LB LM Hql Hq Hr HP Hh Hroom Hgr.
  destruct (digits_facts w ql q Hq) as (LQ & RQ & VQ). destruct (digits_facts w (List.length Mm) r Hr) as (LR & RR & VR).
  fold Q in LQ, RQ, VQ. fold R in LR, RR, VR.
  pose proof (mult_mod_awp rho one md a b m A B Mm Q R) as H. cbv zeta in H. unfold mod_word in H.
  rewrite (ev_length _ _ _ (proj1 Ha)), (ev_length _ _ _ (proj1 Hb)), (ev_length _ _ _ (proj1 Hm)), LQ in H.
  fold w in H. fold X in H. fold M in H.
  assert (NA : Forall (fun v => 0 <= v) A) by (eapply Forall_impl; [|exact Wa]; cbv beta; lia).
  assert (NB : Forall (fun v => 0 <= v) B) by (eapply Forall_impl; [|exact Wb]; cbv beta; lia).
  assert (NM : Forall (fun v => 0 <= v) Mm) by (eapply Forall_impl; [|exact Wm]; cbv beta; lia).
  assert (HV : P = value_of X Q * value_of X Mm + value_of X R) by (unfold X at 1 3; rewrite VQ, VR; exact HP).
  eapply awp_mono; [apply H; auto; clear H|].
  - intros Hmd. unfold X at 1. rewrite VR. auto.
  - cbv beta. intros qr (K1 & K2 & K3 & K4 & K5 & K6). auto.
Qed.

Lemma sides_of_fits A B Mm ql q r w M :
  let X := 2 ^ Z.of_nat w in
  let P := value_of X A * value_of X B in
  let Q := map (digit w q) (seq 0 ql) in
  let R := map (digit w r) (seq 0 (List.length Mm)) in
  Forall (fun v => 0 <= v) A -> Forall (fun v => 0 <= v) B -> Forall (fun v => 0 <= v) Mm ->
  (1 <= length A)%nat -> (1 <= length B)%nat -> (1 <= length Mm)%nat -> (1 <= ql)%nat ->
  0 <= q < 2 ^ Z.of_nat (w * ql) -> 0 <= r < 2 ^ Z.of_nat (w * length Mm) ->
  P = q * value_of X Mm + r -> group_room M w ->
  fits_groups w (group_size M w) (List.length A + length B - 1) (Nat.max (ql + length Mm - 1) (List.length Mm)) P ->
  sides_zero M w (convs A B) (rsum (convs Q Mm) R).
Proof.
  intros X P Q R NA NB NM LA LB LM L1 Hq Hr HP Hroom Hgr.
  destruct (digits_facts w ql q Hq) as (LQ & RQ & VQ). destruct (digits_facts w (List.length Mm) r Hr) as (LR & RR & VR).
  fold Q in LQ, RQ, VQ. fold R in LR, RR, VR.
  assert (HV : P = value_of X Q * value_of X Mm + value_of X R) by (unfold X at 1 3; rewrite VQ, VR; exact HP).
  apply (sides_zero_fits _ _ _ _ P); [apply Hroom|rewrite convs_length; lia|rewrite rsum_length, convs_length; lia|..].
  - apply convs_nonneg; auto.
  - apply rsum_nonneg; [apply convs_nonneg|]; auto; eapply ranges_nonneg; eassumption.
  - apply convs_value.
  - rewrite rsum_value, convs_value. symmetry. exact HV.
  - rewrite rsum_length, !convs_length, LQ, LR. exact Hgr.
Qed.

Lemma num_u_awp md nm w y : canon y -> (md = Honest -> w = Ok y) ->
  awp md rho (num_u nm w) [y] (fun n => lc_eval rho (n_lc n) = y /\ (md = Honest -> n_val n = Some y)).
Proof.
  intros Cy Hw. unfold num_u. do 2 astep. apply num_alloc_awp; auto. intros x v Hx Hv. cbn [n_lc n_val].
  split; [rewrite lc_eval_var; exact Hx|]. intros ->. exact Hv.
Qed.

(** ** calculate_difficulty_update *)
Definition calc_tail (t_sum prev_targ : bignat) : prog bignat :=
  let! t_ideal_sum := num_u "2016 * 10 * 60 or 2 weeks" (Ok (from_u64 two_weeks)) in
  let! t_ideal := bignat_u "BigNat t ideal sum" t_ideal_sum 128 1 in
  let! (t_new, _) := unwrap_prog (ns (Nm "T new compute") (mult_mod prev_targ t_sum t_ideal)) in
  Ret t_new.

Definition num_aux (w k : nat) (x : Z) : list Z :=
  let D := map (digit w x) (seq 0 k) in D ++ flat_map (fun y => map Z.b2z (bits_of w y)) D.
Definition mm_aux (w : nat) (M : Z) (A B Mm Q R : list Z) : list Z :=
  range_aux w Q ++ range_aux w R ++ mod_aux w M (convs A B) (convs Q Mm) R.

(** The only limb without a counterpart is the top limb of quotient times divisor. *)
Lemma calc_sides T t d q r : group_size calc_word 64 = 1%nat -> 0 <= q -> q < 2 ^ 256 \/ d = 0 ->
  sides_zero calc_word 64 (convs (digits64 4 T) (digits64 1 t)) (rsum (convs (digits64 5 q) [d]) (digits64 1 r)).
Proof.
  intros Hg Hq HS. unfold sides_zero. rewrite Hg, rsum_length, !convs_length.
  change (List.length (digits64 4 T)) with 4%nat. change (List.length (digits64 1 t)) with 1%nat.
  change (List.length (digits64 5 q)) with 5%nat. change (List.length (digits64 1 r)) with 1%nat. cbn [List.length].
  change (Nat.min (n_groups (4 + 1 - 1) 1) (n_groups (Nat.max (5 + 1 - 1) 1) 1) * 1)%nat with 4%nat.
  intros i Hi. split; [apply nth_overflow; rewrite convs_length; cbn; lia|]. rewrite rsum_nth.
  rewrite (nth_overflow (digits64 1 r)) by (cbn; lia).
  destruct (Nat.eq_dec i 4) as [->|Hi4]; [|rewrite nth_overflow by (rewrite convs_length; cbn; lia); reflexivity].
  assert (HZ : digit 64 q 4 * d = 0).
  { destruct HS as [HS| ->]; [|ring]. rewrite (digit_zero 64 q 4); [reflexivity|]. change (Z.of_nat (64 * 4)) with 256. lia. }
  unfold convs. rewrite nth_map_seq by (cbn; lia). unfold conv. cbn [sum_n Nat.sub nth]. unfold digits64 at 5. cbn [seq map nth].
  rewrite HZ. ring.
Qed.

Lemma calc_tail_awp md t_sum prev T t d q r :
  (194 <= CAPACITY <= 255)%nat -> exact_carries calc_word 64 ->
  is_bn rho md prev (digits64 4 T) -> in_word prev (digits64 4 T) -> bparams prev = params_new 64 4 ->
  is_bn rho md t_sum (digits64 1 t) -> in_word t_sum (digits64 1 t) -> bparams t_sum = params_new 64 1 ->
  0 <= T < 2 ^ 256 -> 0 <= t < 2 ^ 64 -> 0 <= d < 2 ^ 128 -> 0 <= q < 2 ^ 320 -> 0 <= r < 2 ^ 64 ->
  T * t = q * d + r -> q < 2 ^ 256 \/ d = 0 -> (md = Honest -> d = two_weeks /\ r < d) ->
  awp md rho (calc_tail t_sum prev)
    ([d] ++ num_aux 128 1 d ++ mm_aux 64 calc_word (digits64 4 T) (digits64 1 t) [d] (digits64 5 q) (digits64 1 r))
    (fun b => is_bn rho md b (digits64 5 q) /\ in_word b (digits64 5 q) /\ bparams b = params_new 64 5 /\
       value_of (2 ^ Z.of_nat 64) (digits64 5 q) = q).
Proof.
  intros HC HX HT WT PT Ht Wt Pt RT Rt Rd Rq Rr HE HS Hh.
  destruct (calc_room HC HX) as (Hnw & Hroom & Hg).
  assert (HN : (128 < NUM_BITS)%nat) by (unfold CAPACITY in HC; lia).
  assert (HNB : 2 ^ 128 <= modulus) by (apply (width_lt_modulus 128); auto).
  assert (Cd : canon d) by (split; lia).
  assert (Dd : map (digit 128 d) (seq 0 1) = [d]).
  { cbn [seq map]. unfold digit. change (Z.of_nat (128 * 0)) with 0. rewrite Z.div_1_r. f_equal. apply Z.mod_small. exact Rd. }
  unfold calc_tail. eapply awp_bind. eapply awp_mono; [apply num_u_awp; auto|].
  { intros Hm. destruct (Hh Hm) as [-> _]. unfold from_u64. now rewrite fmk_id. }
  cbv beta. intros n [N1 N2]. eapply awp_bind. unfold bignat_u. apply awp_unwrap, awp_ns.
  eapply awp_mono; [apply (from_num_int_awp md n 128 1 d d); auto|].
  - now rewrite N1.
  - reflexivity.
  - cbv beta. rewrite Dd. intros m (M1 & M2 & M3 & M4). rewrite <- (app_nil_r (mm_aux _ _ _ _ _ _ _)).
    eapply awp_bind. apply awp_unwrap, awp_ns.
    destruct (digits_facts 64 4 T) as (LA & RA & VA). { change (Z.of_nat (64 * 4)) with 256. lia. }
    destruct (digits_facts 64 1 t) as (LB & RB & VB). { change (Z.of_nat (64 * 1)) with 64. lia. }
    fold (digits64 4 T) in LA, RA, VA. fold (digits64 1 t) in LB, RB, VB.
    pose proof (mult_mod_int_awp md prev t_sum m (digits64 4 T) (digits64 1 t) [d] 5 q r) as H. cbv zeta in H.
    rewrite PT, Pt, M2 in H. rewrite !params_word in H. cbn [params_new limb_width List.length] in H. rewrite LA, LB in H.
    fold calc_word in H.
    eapply awp_mono; [apply H; clear H; auto; try lia|].
    + unfold n_bits_of. rewrite PT, Pt. reflexivity.
    + rewrite VA, VB. cbn [value_of]. lia.
    + cbn [value_of]. intros Hm. destruct (Hh Hm). lia.
    + apply calc_sides; auto. lia.
    + cbv beta. intros [qq rr] (K1 & K2 & K3 & K4). cbn [fst] in *. simpl. auto.
Qed.

Lemma calc_hwp prev ts T t : (194 <= CAPACITY <= 255)%nat -> exact_carries calc_word 64 ->
  is_an rho prev T -> is_an rho ts t -> 302400 < t < 4838400 -> T * t / two_weeks < 2 ^ 256 ->
  let q := T * t / two_weeks in
  hwp rho (calculate_difficulty_update prev ts) (fun b => is_bn rho Honest b (digits64 5 q) /\ in_word b (digits64 5 q) /\
    bparams b = params_new 64 5 /\ value_of (2 ^ Z.of_nat 64) (digits64 5 q) = q).
Proof.
  intros HC HX IT It Rt HS q. pose proof (proj1 (proj2 IT)) as CT. pose proof (proj1 (proj2 It)) as Ct.
  assert (HN : (194 < NUM_BITS)%nat) by (unfold CAPACITY in HC; lia).
  assert (HP : 2 ^ 194 <= modulus) by (apply (width_lt_modulus 194); auto).
  assert (HPU : modulus < 2 ^ 256).
  { pose proof modulus_bits as [_ B]. eapply Z.lt_le_trans; [exact B|]. apply Z.pow_le_mono_r; unfold CAPACITY in HC; lia. }
  assert (HD : T * t = q * two_weeks + T * t mod two_weeks).
  { unfold q. pose proof (Z.div_mod (T * t) two_weeks ltac:(discriminate)). lia. }
  pose proof (Z.mod_pos_bound (T * t) two_weeks ltac:(reflexivity)) as HM.
  unfold calculate_difficulty_update. hstep. unfold bignat_u. do 2 hstep. eapply hwp_awp, awp_mono.
  { apply (from_num_int_awp Honest (num_from ts) 64 1 t t); [lia|lia|lia| |reflexivity|].
    - cbn [num_from n_lc]. rewrite lc_eval_var. apply It.
    - intros _. split; auto. apply It. }
  cbv beta. intros t_sum (S1 & S2 & S3 & S4). hstep. unfold bignat_u. do 2 hstep. eapply hwp_awp, awp_mono.
  { apply (from_num_int_awp Honest (num_from prev) 64 4 T T); [destruct CT; lia|lia|lia| |reflexivity|].
    - cbn [num_from n_lc]. rewrite lc_eval_var. apply IT.
    - intros _. split; auto. apply IT. }
  cbv beta. intros prev_targ (P1 & P2 & P3 & P4). hstep. eapply hwp_mono; [apply an_u_hwp|]. intros lo Hlo.
  hstep. eapply hwp_mono; [apply an_u_hwp|]. intros up Hup.
  hstep. eapply hwp_mono; [apply (lt_u_hwp _ _ _ _ _ Hlo It); lia|]. cbv beta. intros r1 Hr1.
  hstep. eapply hwp_mono; [apply (lt_u_hwp _ _ _ _ _ It Hup); lia|]. cbv beta. intros r2 Hr2.
  change (two_weeks / 4) with 302400 in Hr1. change (two_weeks * 4) with 4838400 in Hr2.
  assert (HB : r1 && r2 = true). { rewrite Hr1, Hr2, span_check by (auto; lia). lia. }
  rewrite HB. change (hwp rho (calc_tail t_sum prev_targ) (fun b => is_bn rho Honest b (digits64 5 q) /\ in_word b (digits64 5 q) /\
    bparams b = params_new 64 5 /\ value_of (2 ^ Z.of_nat 64) (digits64 5 q) = q)).
  assert (two_weeks = 1209600) by reflexivity. destruct CT as [CT1 CT2].
  eapply hwp_awp, (calc_tail_awp Honest t_sum prev_targ T t two_weeks q (T * t mod two_weeks)); auto; try lia.
Qed.

Lemma calc_panics prev ts t : (32 < NUM_BITS)%nat -> 2 ^ 35 < modulus -> is_an rho ts t -> ~ (302400 < t < 4838400) ->
  owp rho (calculate_difficulty_update prev ts) (fun r => r = Panic).
Proof.
  intros HN HP It Rt. unfold calculate_difficulty_update, bignat_u, an_u.
  apply owp_skip. intros ?. apply owp_skip. intros ?.
  eapply owp_step; [eapply an_alloc_hwp with (Q := fun a => is_an rho a (fmk (two_weeks / 4))); [reflexivity|]|].
  { intros x Hx. apply is_an_mk; auto. apply fmk_canon. }
  intros lo Hlo. eapply owp_step; [eapply an_alloc_hwp with (Q := fun a => is_an rho a (fmk (two_weeks * 4))); [reflexivity|]|].
  { intros x Hx. apply is_an_mk; auto. apply fmk_canon. }
  intros up Hup. eapply owp_bind_ok; [apply (lt_u_hwp _ _ _ _ _ Hlo It); lia|]. cbv beta. intros r1 Hr1.
  eapply owp_bind_ok; [apply (lt_u_hwp _ _ _ _ _ It Hup); lia|]. cbv beta. intros r2 Hr2.
  change (two_weeks / 4) with 302400 in Hr1. change (two_weeks * 4) with 4838400 in Hr2.
  assert (HB : r1 && r2 = false). { rewrite Hr1, Hr2, span_check by (auto; apply It). lia. }
  rewrite HB. reflexivity.
Qed.

(** Any time span, any divisor. *)
Definition calc_aux (T t d q r : Z) : list Z :=
  num_aux 64 1 t ++ num_aux 64 4 T ++ [0] ++ [0] ++ cmp_aux true ++ cmp_aux true ++
  ([d] ++ num_aux 128 1 d ++ mm_aux 64 calc_word (digits64 4 T) (digits64 1 t) [d] (digits64 5 q) (digits64 1 r)).
Lemma calc_pwp md prev ts T t d q r : md <> Honest -> (194 <= CAPACITY <= 255)%nat -> exact_carries calc_word 64 ->
  eqp (rho (an_var prev)) T -> eqp (rho (an_var ts)) t ->
  0 <= T < 2 ^ 256 -> 0 <= t < 2 ^ 64 -> 0 <= d < 2 ^ 128 -> 0 <= q < 2 ^ 320 -> 0 <= r < 2 ^ 64 ->
  T * t = q * d + r -> q < 2 ^ 256 \/ d = 0 ->
  pwp md rho (calculate_difficulty_update prev ts) (calc_aux T t d q r)
    (fun b => is_bn rho md b (digits64 5 q) /\ bparams b = params_new 64 5 /\ value_of (2 ^ Z.of_nat 64) (digits64 5 q) = q).
Proof.
  intros Hmd HC HX IT It RT Rt Rd Rq Rr HE HS.
  assert (HN : (194 < NUM_BITS)%nat) by (unfold CAPACITY in HC; lia).
  unfold calculate_difficulty_update, calc_aux, bignat_u, an_u.
  eapply pwp_step.
  { apply (from_num_int_awp md (num_from ts) 64 1 t t); [lia|lia|lia| |reflexivity|contradiction].
    cbn [num_from n_lc]. rewrite lc_eval_var. apply It. }
  intros t_sum (S1 & S2 & S3 & S4). eapply pwp_step.
  { apply (from_num_int_awp md (num_from prev) 64 4 T T); [lia|lia|lia| |reflexivity|contradiction].
    cbn [num_from n_lc]. rewrite lc_eval_var. apply IT. }
  intros prev_targ (P1 & P2 & P3 & P4).
  eapply pwp_step; [apply an_alloc_awp with (Q := fun _ => True); [contradiction|auto]|]. intros lo _.
  eapply pwp_step; [apply an_alloc_awp with (Q := fun _ => True); [contradiction|auto]|]. intros up _.
  apply lt_u_pwp; auto. intros r1. apply lt_u_pwp; auto. intros r2.
  destruct (r1 && r2); [|exact I].
  change (pwp md rho (calc_tail t_sum prev_targ)
    ([d] ++ num_aux 128 1 d ++ mm_aux 64 calc_word (digits64 4 T) (digits64 1 t) [d] (digits64 5 q) (digits64 1 r))
    (fun b => is_bn rho md b (digits64 5 q) /\ bparams b = params_new 64 5 /\ value_of (2 ^ Z.of_nat 64) (digits64 5 q) = q)).
  apply awp_pwp. eapply awp_mono; [apply (calc_tail_awp md t_sum prev_targ T t d q r); auto; contradiction|].
  cbv beta. tauto.
Qed.

(** ** Every assignment *)
Definition limbs_are (b : bignat) (w k : nat) (D : list Z) : Prop :=
  bparams b = params_new w k /\ ev rho (limbs b) D /\ in_word b D /\ List.length D = k /\ 0 <= value_of (2 ^ Z.of_nat w) D < 2 ^ Z.of_nat (w * k).
Lemma from_num_int_swp md n w k : swp md rho (from_num n w k) (fun b => exists D,
  limbs_are b w k D /\ eqp (lc_eval rho (n_lc n)) (value_of (2 ^ Z.of_nat w) D)).
Proof.
  eapply swp_mono; [apply from_num_swp; auto|]. cbv beta. intros b (Hp & HL & bss & H1 & H2).
  pose proof (Forall2_len_Forall _ _ _ _ H1) as HF. pose proof (bits_range w bss HF) as HR.
  assert (LD : List.length (map bits_value bss) = k) by (rewrite map_length, <- (Forall2_length _ _ _ H1); auto).
  exists (map bits_value bss). rewrite (bits_value_concat w) in H2 by auto. split; [|exact H2].
  split; auto. split. { clear -H1. induction H1 as [|? ? ? ? [_ H] _ IH]; constructor; auto. }
  split; [|split; auto].
  - unfold in_word. rewrite Hp, params_word. eapply Forall_impl; [|exact HR]. cbv beta. lia.
  - rewrite <- LD. rewrite pow2_mul. apply value_of_bound; auto using pow2_pos.
Qed.

Lemma swp_true {A} md (m : prog A) : swp md rho m (fun _ => True).
Proof. induction m; simpl; auto. Qed.
Lemma swp_and {A} md (m : prog A) : forall (P Q : A -> Prop), swp md rho m P -> swp md rho m Q -> swp md rho m (fun a => P a /\ Q a).
Proof. induction m; simpl; auto. Qed.
Lemma swp_skip {A B} md (m : prog A) (f : A -> prog B) Q : (forall a, swp md rho (f a) Q) -> swp md rho (bind m f) Q.
Proof. intros H. apply swp_bind. eapply swp_mono; [apply swp_true|]. auto. Qed.

Lemma mult_mod_len_swp md a b m na nb w : n_bits a = Ok na -> n_bits b = Ok nb -> limb_width (bparams a) = w -> (1 <= w)%nat ->
  let ql := q_limbs (na + nb) (min_bits (bparams m)) w in
  swp md rho (mult_mod a b m) (fun qr => List.length (limbs (fst qr)) = ql /\ bparams (fst qr) = params_new w ql).
Proof.
  intros Ha Hb Hw W0 ql. unfold mult_mod. do 2 sstep. intros w1 Hw1. unfold width_agreement in Hw1.
  destruct (_ =? _)%nat; [|discriminate]. injection Hw1 as <-. rewrite Hw.
  do 2 sstep. intros na' Hna. rewrite Ha in Hna. injection Hna as <-.
  do 2 sstep. intros nb' Hnb. rewrite Hb in Hnb. injection Hnb as <-.
  do 2 sstep. intros ql' Hql. unfold quotient_limbs in Hql. rewrite (proj2 (Nat.eqb_neq w 0)) in Hql by lia.
  assert (ql' = ql) by (injection Hql; auto). subst ql'.
  do 2 sstep. apply alloc_from_nat_swp. intros q Hq Lq.
  do 6 (apply swp_skip; intros ?). sstep. auto.
Qed.

Lemma calc_swp md prev ts : (194 <= CAPACITY <= 255)%nat -> exact_carries calc_word 64 ->
  swp md rho (calculate_difficulty_update prev ts) (fun b => limb_width (bparams b) = 64%nat /\ range_wires rho 64 b /\
    exists T t d r, eqp (rho (an_var prev)) T /\ eqp (rho (an_var ts)) t /\
      0 <= T < 2 ^ 256 /\ 0 <= t < 2 ^ 64 /\ 0 <= d < 2 ^ 128 /\ 0 <= r < 2 ^ 64 /\
      T * t = int_of rho b * d + r).
Proof.
  intros HC HX. destruct (calc_room HC HX) as (Hnw & Hroom & Hg).
  assert (HN : (194 < NUM_BITS)%nat) by (unfold CAPACITY in HC; lia).
  assert (HP : 2 ^ 194 <= modulus) by (apply (width_lt_modulus 194); auto).
  unfold calculate_difficulty_update, bignat_u, an_u, num_u.
  do 3 sstep. eapply swp_mono; [apply from_num_int_swp|]. cbv beta. intros t_sum (Dt & (S1 & S2 & S3 & S4 & S5) & S6).
  do 3 sstep. eapply swp_mono; [apply from_num_int_swp|]. cbv beta. intros prev_targ (DT & (P1 & P2 & P3 & P4 & P5) & P6).
  do 3 sstep. apply an_alloc_swp. intros ? ? _. do 3 sstep. apply an_alloc_swp. intros ? ? _.
  sstep. eapply swp_mono; [apply swp_true|]. intros r1 _. sstep. eapply swp_mono; [apply swp_true|]. intros r2 _.
  destruct (r1 && r2); [|exact I]. cbn [assert bind].
  do 3 sstep. eapply swp_mono; [apply swp_true|]. intros n _.
  do 3 sstep. eapply swp_mono; [apply from_num_int_swp|]. cbv beta. intros m (Dm & (M1 & M2 & M3 & M4 & M5) & _).
  do 3 sstep. pose proof (mult_mod_swp rho one md prev_targ t_sum m DT Dt Dm) as H. cbv zeta in H.
  rewrite P1 in H. cbn [params_new limb_width] in H. 
  assert (HLq : swp md rho (mult_mod prev_targ t_sum m) (fun qr => List.length (limbs (fst qr)) = 5%nat /\ bparams (fst qr) = params_new 64 5)).
  { pose proof (mult_mod_len_swp md prev_targ t_sum m 256 64 64) as K. rewrite M1 in K. apply K; try lia.
    - unfold n_bits. rewrite P1. reflexivity.
    - unfold n_bits. rewrite S1. reflexivity.
    - now rewrite P1. }
  eapply swp_mono; [eapply swp_and; [exact HLq|apply H; auto]|]; clear H HLq.
  { rewrite P4, S4. cbn. lia. }
  cbv beta. intros [q r] [HL K]. cbn [fst] in HL. destruct HL as [HL HQ]. sstep.
  rewrite HL, M4 in K. destruct K as (K1 & K2 & K3 & K4 & K5 & K6 & K7).
  - cbn. lia.
  - unfold mod_word. rewrite (ev_length _ _ _ P2), (ev_length _ _ _ S2), (ev_length _ _ _ M2), P4, S4, M4, P1, S1, M1, !params_word.
    exact Hnw.
  - split; auto. split; auto. exists (value_of (2 ^ Z.of_nat 64) DT), (value_of (2 ^ Z.of_nat 64) Dt), (value_of (2 ^ Z.of_nat 64) Dm), (int_of rho r).
    cbn [num_from n_lc] in P6, S6. rewrite lc_eval_var in P6, S6.
    split; auto. split; auto. split; [exact P5|]. split; [exact S5|]. split; [|split; [|exact K7]].
    + destruct Dm as [|d [|]]; try discriminate M4. cbn [value_of] in *. change (Z.of_nat (128 * 1)) with 128 in M5. lia.
    + unfold int_of. rewrite K3. apply (digits_bound 64 1); auto. rewrite wires_length. exact K4.
Qed.

(** ** verify_difficulty_update *)
Lemma from_num_some n w k : (1 <= k)%nat -> wrets (from_num n w k) (fun b => limb_values b <> None).
Proof.
  intros Hk. unfold from_num. apply wrets_bind, wrets_ns. unfold alloc_from_nat. apply wrets_bind.
  match goal with |- wrets (mapM (fun i => alloc _ (@?c i)) _) _ =>
    apply wrets_mapM with (R := fun i p => exists z, c i = Ok z /\ snd p = Some z) end.
  - intros i. simpl. intros x z Hz. exists z. auto.
  - intros xs HF. destruct k as [|k]; [lia|]. cbn [seq] in HF. inversion HF as [|i p l bs (z & Hz & Hp) HF']; subst.
    destruct (let? v := rmap f_to_nat (grab (n_val n)) in let? vs := nat_to_limbs v w (S k) in Ok (vs, v)) as [[vs v]|?|] eqn:Ha; try discriminate Hz.
    cbn [captured flat_map]. rewrite Hp. cbn [app].
    simpl. apply wrets_skip. intros ?. simpl. discriminate.
Qed.

Lemma concat_is md hi lo xs ys : bparams hi = params_new 64 2 -> bparams lo = params_new 64 2 ->
  is_bn rho md hi xs -> is_bn rho md lo ys -> in_word hi xs -> in_word lo ys -> limb_values hi <> None \/ limb_values lo = None ->
  exists c, concat hi lo = Ok c /\ is_bn rho md c (ys ++ xs) /\ in_word c (ys ++ xs) /\ bparams c = params_new 64 4.
Proof.
  intros Ph Pl (H1 & H2 & H3 & H4 & H5) (L1 & L2 & L3 & L4 & L5) Wh Wl HSm. unfold concat, width_agreement. rewrite Ph, Pl. cbn [params_new limb_width rbind Nat.eqb].
  eexists. split; [reflexivity|]. rewrite Ph in H3. rewrite Pl in L3. cbn [params_new n_limbs] in H3, L3.
  split; [|split; [|reflexivity]].
  - split; [apply Forall2_app; auto|]. split; [|split; [|split]].
    + unfold lv_ok in *. cbn [limb_values limbs].
      destruct (limb_values lo), (limb_values hi); auto.
      * destruct L2 as [L2 L2'], H2 as [H2 H2']. split; [rewrite !app_length; congruence|apply Forall_app; auto].
      * destruct HSm as [C|C]; congruence.
    + rewrite app_length, <- H3, <- L3. reflexivity.
    + apply Forall_app. auto.
    + intros Hm. destruct (H5 Hm) as [-> ->]. destruct (L5 Hm) as [-> ->]. split; auto. rewrite Ph, Pl. cbn [value bparams limb_width params_new n_limbs].
      f_equal. rewrite value_of_app, <- L3. rewrite Z.shiftl_mul_pow2 by lia. rewrite <- pow2_mul. ring.
  - unfold in_word in *. rewrite Ph in Wh. rewrite Pl in Wl. apply Forall_app. split; [exact Wl|exact Wh].
Qed.

(** Two halves of 128 bits, as four limbs of 64 bits. *)
Definition halves (u l : Z) : list Z := digits64 2 l ++ digits64 2 u.
Lemma halves_facts u l : 0 <= u < 2 ^ 128 -> 0 <= l < 2 ^ 128 ->
  List.length (halves u l) = 4%nat /\ Forall (fun v => 0 <= v < 2 ^ Z.of_nat 64) (halves u l) /\
  value_of (2 ^ Z.of_nat 64) (halves u l) = u * 2 ^ 128 + l.
Proof.
  intros Hu Hl. destruct (digits_facts 64 2 u Hu) as (U1 & U2 & U3). destruct (digits_facts 64 2 l Hl) as (L1 & L2 & L3).
  fold (digits64 2 u) in *. fold (digits64 2 l) in *. unfold halves. rewrite app_length, U1, L1. split; auto.
  split; [apply Forall_app; auto|]. rewrite value_of_app, U3, L3, L1. rewrite <- pow2_mul. change (2 ^ Z.of_nat (64 * 2)) with (2 ^ 128). ring.
Qed.

Definition verify_tail (target prev_target t_sum : bignat) : prog (bignat * bignat) :=
  let! t_ideal_sum := num_u "2016 * 10 * 60" (Ok (from_u64 two_weeks)) in
  let! t_ideal := bignat_u "BigNat t_ideal_sum" t_ideal_sum 64 2 in
  let! (t_new, _) := unwrap_prog (ns (Nm "T_new compute") (mult_mod prev_target t_sum t_ideal)) in
  Ret (target, t_new).

Definition verify_aux (A B : list Z) (d q r : Z) : list Z :=
  [d] ++ num_aux 64 2 d ++ mm_aux 64 verify_word A B (digits64 2 d) (digits64 6 q) (digits64 2 r).
Lemma verify_tail_awp md target prev t_sum A t d q r :
  (194 <= CAPACITY <= 255)%nat -> exact_carries verify_word 64 ->
  is_bn rho md prev A -> in_word prev A -> bparams prev = params_new 64 4 -> List.length A = 4%nat ->
  is_bn rho md t_sum (digits64 2 t) -> in_word t_sum (digits64 2 t) -> bparams t_sum = params_new 64 2 ->
  0 <= value_of (2 ^ Z.of_nat 64) A < 2 ^ 256 -> 0 <= t < 2 ^ 128 -> 0 <= d < 2 ^ 128 -> 0 <= q < 2 ^ 384 -> 0 <= r < 2 ^ 128 ->
  value_of (2 ^ Z.of_nat 64) A * t = q * d + r -> (md = Honest -> d = two_weeks /\ r < d) ->
  awp md rho (verify_tail target prev t_sum) (verify_aux A (digits64 2 t) d q r)
    (fun p => fst p = target /\ is_bn rho md (snd p) (digits64 6 q) /\ in_word (snd p) (digits64 6 q) /\ bparams (snd p) = params_new 64 6 /\
       value_of (2 ^ Z.of_nat 64) (digits64 6 q) = q).
Proof.
  intros HC HX HT WT PT LA Ht Wt Pt RT Rt Rd Rq Rr HE Hh.
  destruct (verify_room HC HX) as (Hnw & Hroom & Hg).
  assert (HN : (128 < NUM_BITS)%nat) by (unfold CAPACITY in HC; lia).
  assert (HNB : 2 ^ 128 <= modulus) by (apply (width_lt_modulus 128); auto).
  assert (Cd : canon d) by (split; lia).
  unfold verify_tail, verify_aux. eapply awp_bind. eapply awp_mono; [apply num_u_awp; auto|].
  { intros Hm. destruct (Hh Hm) as [-> _]. unfold from_u64. now rewrite fmk_id. }
  cbv beta. intros n [N1 N2]. eapply awp_bind. unfold bignat_u. apply awp_unwrap, awp_ns.
  eapply awp_mono; [apply (from_num_int_awp md n 64 2 d d); auto|].
  - lia.
  - now rewrite N1.
  - reflexivity.
  - cbv beta. fold (digits64 2 d). intros m (M1 & M2 & M3 & M4). rewrite <- (app_nil_r (mm_aux _ _ _ _ _ _ _)).
    eapply awp_bind. apply awp_unwrap, awp_ns.
    destruct (digits_facts 64 2 t) as (LB & RB & VB). { exact Rt. }
    destruct (digits_facts 64 2 d) as (LD & RD & VD). { exact Rd. }
    fold (digits64 2 t) in LB, RB, VB. fold (digits64 2 d) in LD, RD, VD.
    pose proof (mult_mod_int_awp md prev t_sum m A (digits64 2 t) (digits64 2 d) 6 q r) as H. cbv zeta in H.
    rewrite PT, Pt, M2 in H. rewrite !params_word in H. cbn [params_new limb_width] in H. rewrite LA, LB, LD in H.
    fold verify_word in H.
    eapply awp_mono; [apply H; clear H; auto; try lia|].
    + unfold n_bits_of. rewrite PT, Pt. reflexivity.
    + rewrite <- LD. apply sides_of_fits; auto; rewrite ?LA, ?LB, ?LD, ?VB, ?VD; auto; try lia.
      * eapply Forall_impl; [|exact WT]. cbv beta. lia.
      * eapply Forall_impl; [|exact Wt]. cbv beta. lia.
      * eapply Forall_impl; [|exact M3]. cbv beta. lia.
      * rewrite Hg. right. change (List.length (digits64 2 t)) with 2%nat. change (2 ^ Z.of_nat (64 * (Nat.min (n_groups (4 + 2 - 1) 2) (n_groups (Nat.max (6 + 2 - 1) 2) 2) * 2))) with (2 ^ 256 * 2 ^ 128).
        apply Z.mul_lt_mono_nonneg; lia.
    + cbv beta. intros [qq rr] (K1 & K2 & K3 & K4). cbn [fst snd] in *. split; [reflexivity|]. cbn [fst snd]. auto.
Qed.

End Rho.
End Difficulty.
