(** src/mp/bignat.rs: completeness of the multiplication and modular gadgets (C32-C37). *)
From Coq Require Import ZArith Bool List Lia Setoid Morphisms ZifyBool ZifyNat.
From Verif.Model Require Import Base CS Bellpepper Util Poly Bignat.
From Verif.Spec Require Import Spec.
From Verif.Proofs Require Import Field Arith Convert Limbs Wp Lc BitNum PolyP BoolP BignatEq BignatAlloc Group Carry Regroup TopPoly Mult.
Import ListNotations.
Local Open Scope Z_scope.

Section MultC.
Context {E : Env} {W : Wf E}.

Lemma group_room_word M w : 0 <= M -> group_room M w -> M < modulus.
Proof.
  intros H0 (_ & Hg & _ & HM). rewrite group_word_ones in HM.
  pose proof (ones_ge (2 ^ Z.of_nat w) (group_size M w) (pow2_ge1 w) Hg) as H1.
  assert (1 <= (2 ^ Z.of_nat w) ^ Z.of_nat (group_size M w - 1)).
  { rewrite <- pow2_mul. apply pow2_ge1. }
  nia.
Qed.

Lemma canon_map (l : list Z) (f : nat -> Z) k M : M < modulus ->
  Forall (fun d => 0 <= d <= M) (map f (seq 0 k)) -> map (fun i => fmk (f i)) (seq 0 k) = map f (seq 0 k).
Proof.
  intros HM H. rewrite Forall_map, Forall_forall in H. apply map_ext_in. intros i Hi.
  apply fmk_small. specialize (H i Hi). lia.
Qed.

Section Rho.
Context (rho : assignment) (one : rho ONE = 1).

Definition vals_ok (md : mode) (p : polynomial) (vs : list Z) : Prop :=
  ev rho (p_coeffs p) vs /\
  match p_vals p with Some xs => length xs = length vs /\ Forall canon xs | None => True end /\
  (md = Honest -> p_vals p = Some vs).

Lemma is_bn_vals md b vs : is_bn rho md b vs -> vals_ok md (to_poly b) vs.
Proof.
  intros (H1 & H2 & H3 & H4 & H5). split; auto. split.
  - unfold to_poly; cbn [p_vals]. unfold lv_ok in H2. destruct (limb_values b); auto.
    rewrite <- (ev_length _ _ _ H1). auto.
  - intros Hm. apply H5; auto.
Qed.

Lemma product_awp md a b A B M : vals_ok md a A -> vals_ok md b B ->
  (1 <= length A)%nat -> (1 <= length B)%nat ->
  Forall (fun d => 0 <= d <= M) (convs A B) -> M < modulus ->
  awp md rho (alloc_product a b) (convs A B) (fun p => vals_ok md p (convs A B)).
Proof.
  intros (Ha & Va & Hha) (Hb & Vb & Hhb) LA LB HB HM.
  pose proof (canon_map [] _ _ _ HM HB) as HC.
  unfold convs in *. rewrite <- HC.
  eapply awp_mono; [apply (alloc_product_awp rho md a b A B); auto|].
  - destruct (p_vals a); tauto.
  - destruct (p_vals b); tauto.
  - intros p (H1 & H2 & H3). split; auto. split; auto. rewrite map_length, seq_length. auto.
Qed.

Lemma sum_vals md p r P R M : vals_ok md p P -> vals_ok md r R ->
  Forall (fun d => 0 <= d <= M) (rsum P R) -> M < modulus ->
  vals_ok md (poly_sum p r) (rsum P R).
Proof.
  intros (Hp & Vp & Hhp) (Hr & Vr & Hhr) HB HM. split; [|split].
  - now apply poly_sum_ev.
  - unfold poly_sum. cbn [p_vals]. destruct (p_vals p), (p_vals r); auto.
    rewrite map_length, seq_length, rsum_length, (ev_length _ _ _ Hp), (ev_length _ _ _ Hr).
    split; auto. apply Forall_map, Forall_forall. intros. apply fadd_canon.
  - intros Hm. unfold poly_sum. cbn [p_vals]. rewrite (Hhp Hm), (Hhr Hm), (ev_length _ _ _ Hp), (ev_length _ _ _ Hr).
    f_equal. unfold rsum. rewrite <- (canon_map [] _ _ _ HM HB). apply map_ext. intros i.
    unfold fadd. apply (proj1 (eqp_eq _ _)). rewrite eqp_fmk. unfold fzero. ering.
Qed.

Lemma from_poly_lv md p vs w m : vals_ok md p vs -> lv_ok (from_poly p w m).
Proof.
  intros (H1 & H2 & _). unfold lv_ok, from_poly; cbn [limb_values limbs].
  destruct (p_vals p); auto. rewrite (ev_length _ _ _ H1). auto.
Qed.

Lemma verify_mult_awp md a b prod A B P :
  let w := limb_width (bparams a) in
  let M := Z.max (mult_word a b) (max_word (bparams prod)) in
  let g := group_size M w in
  let n := Nat.min (n_groups (length A + length B - 1) g) (n_groups (length P) g) in
  limb_width (bparams b) = w -> limb_width (bparams prod) = w ->
  is_bn rho md a A -> is_bn rho md b B -> is_bn rho md prod P ->
  in_word a A -> in_word b B -> in_word prod P ->
  (1 <= w)%nat -> (1 <= length A)%nat -> (1 <= length B)%nat -> (1 <= length P)%nat ->
  group_room M w ->
  value_of (2 ^ Z.of_nat w) A * value_of (2 ^ Z.of_nat w) B = value_of (2 ^ Z.of_nat w) P ->
  (forall i, (n * g <= i)%nat -> nth i (convs A B) 0 = 0 /\ nth i P 0 = 0) ->
  awp md rho (verify_mult a b prod) (convs A B ++ regroup_aux M w (convs A B) P) (fun _ => True).
Proof.
  intros w M g n W1 W2 Ha Hb Hp WA WB WP Hw LA LB LP HG HV HZ. unfold verify_mult, width_agreement.
  rewrite W1, W2. fold w. rewrite Nat.eqb_refl. cbn [lift bind].
  change (Z.of_nat _ * _ * _) with (mult_word a b).
  assert (HB : Forall (fun d => 0 <= d <= mult_word a b) (convs A B)).
  { unfold mult_word, product_word.
    destruct Ha as (_ & _ & -> & _). destruct Hb as (_ & _ & -> & _). apply conv_list_bound; auto. }
  assert (HM : M < modulus).
  { apply (group_room_word M w); auto. unfold in_word in WP. destruct P; [simpl in LP; lia|]. inversion WP; lia. }
  apply awp_bind. apply awp_ns.
  eapply awp_mono; [apply (product_awp md _ _ A B (mult_word a b)); auto using is_bn_vals; lia|].
  intros pp Hpp. cbv beta in Hpp. apply awp_ns.
  pose proof (regroup_awp rho one md (from_poly pp w (mult_word a b)) prod (convs A B) P) as HR.
  cbv zeta in HR. rewrite from_poly_bparams in HR. cbn [limb_width max_word] in HR.
  fold M in HR. rewrite convs_length in HR. apply HR; auto; clear HR.
  - apply Hpp.
  - apply Hp.
  - eapply from_poly_lv; eauto.
  - apply Hp.
  - lia.
  - rewrite convs_value. exact HV.
  - intros Hm. split; [|apply Hp; auto]. unfold from_poly. cbn [limb_values]. apply Hpp; auto.
Qed.

Lemma digits_unique w P : Forall (fun v => 0 <= v < 2 ^ Z.of_nat w) P ->
  P = map (digit w (value_of (2 ^ Z.of_nat w) P)) (seq 0 (length P)).
Proof.
  intros H. apply (value_of_inj (2 ^ Z.of_nat w)); auto using pow2_pos, digits_range.
  - now rewrite map_length, seq_length.
  - rewrite digits_value, Z.mod_small; auto. rewrite pow2_mul. apply value_of_bound; auto using pow2_pos.
Qed.
Lemma range_value w P : Forall (fun v => 0 <= v < 2 ^ Z.of_nat w) P ->
  0 <= value_of (2 ^ Z.of_nat w) P < 2 ^ Z.of_nat (w * length P).
Proof. intros H. rewrite pow2_mul. apply value_of_bound; auto using pow2_pos. Qed.
Lemma range_in_word w n b P : bparams b = params_new w n -> Forall (fun v => 0 <= v < 2 ^ Z.of_nat w) P -> in_word b P.
Proof.
  intros Hp H. unfold in_word. rewrite Hp. change (max_word (params_new w n)) with (int_with_n_ones w).
  rewrite int_with_n_ones_spec. eapply Forall_impl; [|exact H]. cbv beta. lia.
Qed.

(** An allocated and range-checked number. *)
Lemma alloc_range_awp md (nm1 nm2 : name) f w n P {A} (k : bignat -> prog A) ys (Q : A -> Prop) :
  length P = n -> (1 <= n)%nat -> (1 <= w)%nat -> (w < NUM_BITS)%nat ->
  Forall (fun v => 0 <= v < 2 ^ Z.of_nat w) P ->
  (md = Honest -> f = Ok (value_of (2 ^ Z.of_nat w) P)) ->
  (forall b, is_bn rho md b P -> bparams b = params_new w n -> in_word b P -> awp md rho (k b) ys Q) ->
  awp md rho (let! b := ns nm1 (alloc_from_nat f w n) in
              let! _ := ns nm2 (assert_well_formed b) in k b)
    (P ++ flat_map (fun y => fits_aux y w) P ++ ys) Q.
Proof.
  intros HL Hn Hw1 Hw HR Hf HK. apply awp_bind. apply awp_ns.
  apply (alloc_from_nat_awp rho md f w n P); auto.
  - eapply range_canon; eauto.
  - intros Hm. split; [auto|]. split; auto. eexists; split; [apply Hf; auto|].
    split; [subst n; now apply range_value|]. subst n. now apply digits_unique.
  - intros b Hb Hp. assert (Hlw : limb_width (bparams b) = w) by (rewrite Hp; reflexivity).
    apply awp_bind. apply awp_ns. eapply awp_mono; [rewrite <- Hlw; apply (assert_well_formed_awp rho one md b P Hb)|].
    + rewrite Hlw, width1_pos by auto. eapply Forall_impl; [|exact HR]. cbv beta. lia.
    + intros _. rewrite Hlw. lia.
    + intros _ _. apply HK; auto. eapply range_in_word; eauto.
Qed.

Lemma is_bn_value md b vs : is_bn rho md b vs -> md = Honest ->
  value b = Some (value_of (2 ^ Z.of_nat (limb_width (bparams b))) vs).
Proof. intros (_ & _ & _ & _ & H) Hm. apply H; auto. Qed.

Definition mult_aux (w : nat) (M : Z) (A B P : list Z) : list Z :=
  P ++ flat_map (fun y => fits_aux y w) P ++ (convs A B ++ regroup_aux M w (convs A B) P).

Lemma mult_awp md a b A B P :
  let w := limb_width (bparams a) in
  let M := Z.max (mult_word a b) (2 ^ Z.of_nat w - 1) in
  let g := group_size M w in
  limb_width (bparams b) = w ->
  is_bn rho md a A -> is_bn rho md b B -> in_word a A -> in_word b B ->
  (1 <= w)%nat -> (w < NUM_BITS)%nat -> (1 <= length A)%nat -> (1 <= length B)%nat ->
  length P = (length A + length B)%nat -> Forall (fun v => 0 <= v < 2 ^ Z.of_nat w) P ->
  group_room M w ->
  value_of (2 ^ Z.of_nat w) A * value_of (2 ^ Z.of_nat w) B = value_of (2 ^ Z.of_nat w) P ->
  value_of (2 ^ Z.of_nat w) P < 2 ^ Z.of_nat (w * (n_groups (length A + length B - 1) g * g)) ->
  awp md rho (mult a b) (mult_aux w M A B P) (fun p => is_bn rho md p P /\ in_word p P /\
    bparams p = mkParams (if ((0 <? min_bits (bparams a)) && (0 <? min_bits (bparams b)))%nat
        then min_bits (bparams a) + min_bits (bparams b) - 1 else 0) (2 ^ Z.of_nat w - 1) w
        (length B + length A)).
Proof.
  intros w M g W1 Ha Hb WA WB Hw Hw' LA LB LP HR HG HV HT. unfold mult, width_agreement.
  rewrite W1. fold w. rewrite Nat.eqb_refl. cbn [lift bind]. unfold mult_aux.
  assert (NA : n_limbs (bparams a) = length A) by apply Ha.
  assert (NB : n_limbs (bparams b) = length B) by apply Hb.
  set (mb := ((0 <? min_bits (bparams a)) && (0 <? min_bits (bparams b)))%nat).
  (* the range check is on the renamed number *)
  apply awp_bind. apply awp_ns. rewrite NA, NB.
  apply (alloc_from_nat_awp rho md _ w (length B + length A) P); [lia|eapply range_canon; eauto| |].
  { intros Hm. split; [lia|]. split; auto. exists (value_of (2 ^ Z.of_nat w) P).
    rewrite (is_bn_value _ _ _ Ha Hm), (is_bn_value _ _ _ Hb Hm), W1. fold w. cbn [grab rbind].
    split; [now rewrite HV|]. split.
    - rewrite Nat.add_comm, <- LP. now apply range_value.
    - rewrite Nat.add_comm, <- LP. now apply digits_unique. }
  intros p0 Hp0 Pp0. set (p := if mb then _ else _).
  assert (Pp : bparams p = mkParams (if mb then min_bits (bparams a) + min_bits (bparams b) - 1 else 0)
     (2 ^ Z.of_nat w - 1) w (length B + length A)).
  { rewrite <- int_with_n_ones_spec. unfold p, set_min_bits, with_params. destruct mb; cbn [bparams]; rewrite Pp0; reflexivity. }
  assert (Hp : is_bn rho md p P).
  { unfold p. destruct mb; exact Hp0. }
  clearbody p. clear p0 Hp0 Pp0.
  assert (Hlw : limb_width (bparams p) = w) by (rewrite Pp; reflexivity).
  assert (WP : in_word p P).
  { unfold in_word. rewrite Pp. cbn [max_word]. eapply Forall_impl; [|exact HR]. cbv beta. lia. }
  apply awp_bind. apply awp_ns. eapply awp_mono; [rewrite <- Hlw; apply (assert_well_formed_awp rho one md p P Hp)|].
  { rewrite Hlw, width1_pos by auto. eapply Forall_impl; [|exact HR]. cbv beta. lia. }
  { intros _. rewrite Hlw. lia. }
  intros _ _. apply awp_bind_all. apply awp_ns.
  assert (HMm : Z.max (mult_word a b) (max_word (bparams p)) = M) by (rewrite Pp; reflexivity).
  pose proof (verify_mult_awp md a b p A B P) as HVM. cbv zeta in HVM. fold w in HVM. rewrite HMm in HVM.
  assert (Hn : (n_groups (length A + length B - 1) g <= n_groups (length P) g)%nat).
  { rewrite LP. apply n_groups_mono; [|lia]. destruct HG as (_ & HG & _). fold g in HG. lia. }
  assert (Hg1 : (1 <= g)%nat) by apply HG.
  eapply awp_mono; [apply HVM; auto; try lia|].
  - fold g. rewrite Nat.min_l by auto. intros i Hi. split.
    + apply nth_overflow. rewrite convs_length.
      pose proof (n_groups_fit (length A + length B - 1) g). lia.
    + destruct (Nat.lt_ge_cases i (length P)) as [Hi'|Hi']; [|now apply nth_overflow].
      rewrite (digits_unique w P HR). rewrite (nth_indep _ 0 (digit w (value_of (2 ^ Z.of_nat w) P) 0)) by now rewrite map_length, seq_length.
      rewrite map_nth, seq_nth by auto. apply digit_zero. split; [now apply range_value|].
      eapply Z.lt_le_trans; [exact HT|]. apply pow2_le. cbn [Nat.add]. nia.
  - intros _ _. astep. split; auto.
Qed.

(** ** Division identities *)
Definition sides_zero (M : Z) (w : nat) (L R : list Z) : Prop :=
  let g := group_size M w in
  let n := Nat.min (n_groups (length L) g) (n_groups (length R) g) in
  forall i, (n * g <= i)%nat -> nth i L 0 = 0 /\ nth i R 0 = 0.

Lemma sides_zero_same M w L R : (1 <= group_size M w)%nat -> (1 <= length L)%nat -> (1 <= length R)%nat ->
  n_groups (length L) (group_size M w) = n_groups (length R) (group_size M w) -> sides_zero M w L R.
Proof.
  intros Hg LL LR HN i Hi. pose proof (n_groups_fit _ _ LL Hg). pose proof (n_groups_fit _ _ LR Hg).
  split; apply nth_overflow; lia.
Qed.

Lemma value_of_nth_le B l i : 0 <= B -> Forall (fun d => 0 <= d) l -> nth i l 0 * B ^ Z.of_nat i <= value_of B l.
Proof.
  intros HB Hl. revert i. induction Hl as [|x l Hx Hl IH]; intros i; cbn [value_of].
  - destruct i; cbn; lia.
  - destruct i as [|i]; cbn [nth].
    + pose proof (value_of_nonneg B l HB Hl). rewrite Z.pow_0_r. nia.
    + specialize (IH i). rewrite Nat2Z.inj_succ, Z.pow_succ_r by lia. nia.
Qed.
Lemma sides_zero_fits M w L R P : (1 <= group_size M w)%nat -> (1 <= length L)%nat -> (1 <= length R)%nat ->
  Forall (fun d => 0 <= d) L -> Forall (fun d => 0 <= d) R ->
  value_of (2 ^ Z.of_nat w) L = P -> value_of (2 ^ Z.of_nat w) R = P ->
  fits_groups w (group_size M w) (length L) (length R) P -> sides_zero M w L R.
Proof.
  intros Hg LL LR NL NR VL VR [H|H]; [now apply sides_zero_same|]. intros i Hi.
  assert (K : forall l, Forall (fun d => 0 <= d) l -> value_of (2 ^ Z.of_nat w) l = P -> nth i l 0 = 0).
  { intros l Nl Vl. pose proof (value_of_nth_le (2 ^ Z.of_nat w) l i ltac:(pose proof (pow2_pos w); lia) Nl) as Hn.
    assert (0 <= nth i l 0).
    { destruct (nth_in_or_default i l 0) as [Hin| ->]; [|lia]. rewrite Forall_forall in Nl. auto. }
    rewrite Vl, <- Z.pow_mul_r, <- Nat2Z.inj_mul in Hn by lia.
    apply (Nat.mul_le_mono_l _ _ w) in Hi. apply pow2_le in Hi. nia. }
  split; apply K; auto.
Qed.
Lemma convs_nonneg A B : Forall (fun d => 0 <= d) A -> Forall (fun d => 0 <= d) B -> Forall (fun d => 0 <= d) (convs A B).
Proof. intros HA HB. unfold convs. apply Forall_map. apply Forall_forall. intros i _. now apply conv_nonneg. Qed.
Lemma canons_nonneg A : Forall canon A -> Forall (fun d => 0 <= d) A.
Proof. apply Forall_impl. unfold canon. lia. Qed.
Lemma ranges_nonneg w A : Forall (fun d => 0 <= d < w) A -> Forall (fun d => 0 <= d) A.
Proof. apply Forall_impl. lia. Qed.

Lemma two_sides_awp md lhs rhs w a q m r L Q Mm R :
  vals_ok md lhs L -> Forall (fun d => 0 <= d <= a) L ->
  vals_ok md rhs (convs Q Mm) -> is_bn rho md r R ->
  length (limbs q) = length Q -> length (limbs m) = length Mm ->
  in_word q Q -> in_word m Mm -> in_word r R -> 0 <= max_word (bparams r) ->
  (1 <= w)%nat -> (1 <= length L)%nat -> (1 <= length Q)%nat -> (1 <= length Mm)%nat ->
  let M := Z.max a (right_max_word q m r) in
  group_room M w ->
  value_of (2 ^ Z.of_nat w) L = value_of (2 ^ Z.of_nat w) Q * value_of (2 ^ Z.of_nat w) Mm + value_of (2 ^ Z.of_nat w) R ->
  sides_zero M w L (rsum (convs Q Mm) R) ->
  awp md rho (equal_when_carried_regroup (from_poly lhs w a)
     (from_poly (poly_sum rhs (to_poly r)) w (right_max_word q m r)))
     (regroup_aux M w L (rsum (convs Q Mm) R)) (fun _ => True).
Proof.
  intros HL BL HP Hr LQ LM WQ WM WR R0 Hw L1 Q1 M1 M HG HV HZ.
  assert (B1 : Forall (fun d => 0 <= d <= Z.of_nat (Nat.min (length Q) (length Mm)) * max_word (bparams q) * max_word (bparams m))
     (convs Q Mm)) by (apply conv_list_bound; auto).
  assert (C0 : 0 <= Z.of_nat (Nat.min (length Q) (length Mm)) * max_word (bparams q) * max_word (bparams m)).
  { pose proof (conv_bound Q Mm 0 _ _ WQ WM). lia. }
  assert (BR : Forall (fun d => 0 <= d <= right_max_word q m r) (rsum (convs Q Mm) R)).
  { unfold right_max_word. rewrite LQ, LM. apply rsum_bound; auto. }
  assert (R1 : 0 <= right_max_word q m r) by (unfold right_max_word; rewrite LQ, LM; lia).
  assert (HM : M < modulus) by (apply (group_room_word M w); auto; lia).
  assert (HS : vals_ok md (poly_sum rhs (to_poly r)) (rsum (convs Q Mm) R)).
  { eapply sum_vals; eauto using is_bn_vals. lia. }
  pose proof (regroup_awp rho one md (from_poly lhs w a)
     (from_poly (poly_sum rhs (to_poly r)) w (right_max_word q m r)) L (rsum (convs Q Mm) R)) as HX.
  cbv zeta in HX. rewrite !from_poly_bparams in HX. cbn [limb_width max_word] in HX. fold M in HX.
  apply HX; auto; clear HX.
  - apply HL.
  - apply HS.
  - eapply from_poly_lv; eauto.
  - eapply from_poly_lv; eauto.
  - rewrite rsum_length, convs_length. lia.
  - rewrite rsum_value, convs_value. exact HV.
  - intros Hm. unfold from_poly. cbn [limb_values]. split; [now apply HL|now apply HS].
Qed.

Lemma quot_rem_unique x m q r : 0 <= x -> 0 < m -> 0 <= r < m -> x = q * m + r ->
  bigint_div x m = Ok q /\ bigint_rem x m = Ok r.
Proof.
  intros Hx Hm Hr HE. unfold bigint_div, bigint_rem. rewrite (proj2 (Z.eqb_neq m 0)) by lia.
  rewrite Z.quot_div_nonneg, Z.rem_mod_nonneg by lia. split; f_equal.
  - symmetry. apply (Z.div_unique x m q r); lia.
  - symmetry. apply (Z.mod_unique x m q r); lia.
Qed.

Lemma n_bits_ok b : (1 <= n_limbs (bparams b))%nat -> n_bits b = Ok (n_bits_of b).
Proof. intros H. unfold n_bits. rewrite (proj2 (Nat.ltb_lt _ _)) by lia. reflexivity. Qed.

Definition mod_aux (w : nat) (M : Z) (L1 L2 R : list Z) : list Z :=
  L1 ++ L2 ++ regroup_aux M w L1 (rsum L2 R).
Definition range_aux (w : nat) (P : list Z) : list Z := P ++ flat_map (fun y => fits_aux y w) P.

Lemma in_word_max b vs : in_word b vs -> (1 <= length vs)%nat -> 0 <= max_word (bparams b).
Proof. intros H L. destruct vs; [simpl in L; lia|]. inversion H; lia. Qed.

(** The part shared by [mult_mod] and [assert_product_mod]. *)
Lemma mod_check_awp {T} md a b m q r A B Mm Q R w (k : prog T) ys (post : T -> Prop) :
  is_bn rho md a A -> is_bn rho md b B -> is_bn rho md m Mm -> is_bn rho md q Q -> is_bn rho md r R ->
  in_word a A -> in_word b B -> in_word m Mm -> in_word q Q -> in_word r R ->
  max_word (bparams q) = 2 ^ Z.of_nat w - 1 -> 0 <= max_word (bparams r) ->
  (1 <= w)%nat -> (1 <= length A)%nat -> (1 <= length B)%nat -> (1 <= length Mm)%nat -> (1 <= length Q)%nat ->
  let M := mod_word a b m (length Q) (max_word (bparams r)) w in
  group_room M w ->
  value_of (2 ^ Z.of_nat w) A * value_of (2 ^ Z.of_nat w) B =
    value_of (2 ^ Z.of_nat w) Q * value_of (2 ^ Z.of_nat w) Mm + value_of (2 ^ Z.of_nat w) R ->
  sides_zero M w (convs A B) (rsum (convs Q Mm) R) ->
  awp md rho k ys post ->
  forall n1 n2 n3,
  awp md rho (
    let! lhs := ns n1 (alloc_product (to_poly a) (to_poly b)) in
    let! right_product := ns n2 (alloc_product (to_poly q) (to_poly m)) in
    let! _ := ns n3 (equal_when_carried_regroup (from_poly lhs w (left_max_word a b))
       (from_poly (poly_sum right_product (to_poly r)) w (right_max_word q m r))) in k)
    (mod_aux w M (convs A B) (convs Q Mm) R ++ ys) post.
Proof.
  intros Ha Hb Hm Hq Hr WA WB WM WQ WR Pq Pr Hw LA LB LM LQ M HG HV HZ HK n1 n2 n3.
  assert (La : length (limbs a) = length A) by apply (ev_length _ _ _ (proj1 Ha)).
  assert (Lb : length (limbs b) = length B) by apply (ev_length _ _ _ (proj1 Hb)).
  assert (Lm : length (limbs m) = length Mm) by apply (ev_length _ _ _ (proj1 Hm)).
  assert (Lq : length (limbs q) = length Q) by apply (ev_length _ _ _ (proj1 Hq)).
  assert (HMM : M = Z.max (left_max_word a b) (right_max_word q m r)).
  { unfold M, mod_word, product_word, left_max_word, right_max_word. rewrite Lq, Pq. reflexivity. }
  pose proof (in_word_max _ _ WA LA). pose proof (in_word_max _ _ WB LB). pose proof (in_word_max _ _ WM LM).
  pose proof (in_word_max _ _ WQ LQ).
  assert (BL : Forall (fun d => 0 <= d <= left_max_word a b) (convs A B)).
  { unfold left_max_word. rewrite La, Lb. apply conv_list_bound; auto. }
  assert (BR : Forall (fun d => 0 <= d <= right_max_word q m r) (convs Q Mm)).
  { unfold right_max_word. rewrite Lq, Lm. eapply Forall_impl; [|apply conv_list_bound; [exact WQ|exact WM]].
    cbv beta. lia. }
  assert (R0 : 0 <= left_max_word a b) by (unfold left_max_word; apply Z.mul_nonneg_nonneg; [apply Z.mul_nonneg_nonneg|]; lia).
  assert (HM : M < modulus) by (apply (group_room_word M w); auto; lia).
  unfold mod_aux. rewrite <- !app_assoc.
  apply awp_bind. apply awp_ns.
  eapply awp_mono; [apply (product_awp md _ _ A B (left_max_word a b)); auto using is_bn_vals; lia|].
  intros lhs Hl. cbv beta in Hl. apply awp_bind. apply awp_ns.
  eapply awp_mono; [apply (product_awp md _ _ Q Mm (right_max_word q m r)); auto using is_bn_vals; lia|].
  intros rp Hrp. cbv beta in Hrp. apply awp_bind. apply awp_ns.
  rewrite HMM. eapply awp_mono; [apply (two_sides_awp md lhs rp w (left_max_word a b) q m r (convs A B) Q Mm R); auto|].
  - rewrite convs_length. lia.
  - rewrite <- HMM. exact HG.
  - rewrite convs_value. exact HV.
  - rewrite <- HMM. exact HZ.
  - intros _ _. exact HK.
Qed.

Lemma alloc_range_awp' md (nm1 nm2 : name) f w n P {A} (k : bignat -> prog A) ys (Q : A -> Prop) :
  length P = n -> (1 <= n)%nat -> (1 <= w)%nat -> (w < NUM_BITS)%nat ->
  Forall (fun v => 0 <= v < 2 ^ Z.of_nat w) P ->
  (md = Honest -> f = Ok (value_of (2 ^ Z.of_nat w) P)) ->
  (forall b, is_bn rho md b P -> bparams b = params_new w n -> in_word b P -> awp md rho (k b) ys Q) ->
  awp md rho (let! b := ns nm1 (alloc_from_nat f w n) in
              let! _ := ns nm2 (assert_well_formed b) in k b)
    (range_aux w P ++ ys) Q.
Proof. intros. unfold range_aux. rewrite <- app_assoc. now apply alloc_range_awp. Qed.

Lemma params_word w n : max_word (params_new w n) = 2 ^ Z.of_nat w - 1.
Proof. apply int_with_n_ones_spec. Qed.

Lemma mult_mod_awp md a b m A B Mm Q R :
  let w := limb_width (bparams a) in
  let X := 2 ^ Z.of_nat w in
  let M := mod_word a b m (length Q) (2 ^ Z.of_nat w - 1) w in
  limb_width (bparams b) = w -> (md = Honest -> limb_width (bparams m) = w \/ length Mm = 1%nat) ->
  is_bn rho md a A -> is_bn rho md b B -> is_bn rho md m Mm ->
  in_word a A -> in_word b B -> in_word m Mm ->
  (1 <= w)%nat -> (w < NUM_BITS)%nat -> (1 <= length A)%nat -> (1 <= length B)%nat -> (1 <= length Mm)%nat ->
  length Q = q_limbs (n_bits_of a + n_bits_of b) (min_bits (bparams m)) w -> length R = length Mm ->
  Forall (fun v => 0 <= v < X) Q -> Forall (fun v => 0 <= v < X) R ->
  group_room M w ->
  value_of X A * value_of X B = value_of X Q * value_of X Mm + value_of X R ->
  sides_zero M w (convs A B) (rsum (convs Q Mm) R) ->
  (md = Honest -> value_of X R < value_of X Mm) ->
  awp md rho (mult_mod a b m)
    (range_aux w Q ++ range_aux w R ++ mod_aux w M (convs A B) (convs Q Mm) R) (fun qr =>
    is_bn rho md (fst qr) Q /\ is_bn rho md (snd qr) R /\ in_word (fst qr) Q /\ in_word (snd qr) R /\
    bparams (fst qr) = params_new w (length Q) /\ bparams (snd qr) = params_new w (length R)).
Proof.
  intros w X M W1 W2 Ha Hb Hm WA WB WM Hw Hw' LA LB LM LQ LR HQ HR HG HV HZ Hh.
  unfold mult_mod, width_agreement. rewrite W1. fold w. rewrite Nat.eqb_refl. cbn [lift bind].
  rewrite !n_bits_ok by (rewrite ?(proj1 (proj2 (proj2 Ha))), ?(proj1 (proj2 (proj2 Hb))); auto). cbn [lift bind].
  unfold quotient_limbs. rewrite (proj2 (Nat.eqb_neq w 0)) by lia. cbn [lift bind].
  fold (q_limbs (n_bits_of a + n_bits_of b) (min_bits (bparams m)) w). rewrite <- LQ.
  assert (Lm : length (limbs m) = length Mm) by apply (ev_length _ _ _ (proj1 Hm)).
  assert (LQ1 : (1 <= length Q)%nat) by (rewrite LQ; apply Nat.le_add_l).
  assert (HXp : 0 < X) by apply pow2_pos.
  assert (Hop : md = Honest -> exists z, (let? x := grab (value a) in let? y := grab (value b) in
                  let? z := grab (value m) in Ok (x * y, z)) = Ok (value_of X A * value_of X B, z) /\
      z = value_of X Mm /\ bigint_div (value_of X A * value_of X B) z = Ok (value_of X Q) /\
      bigint_rem (value_of X A * value_of X B) z = Ok (value_of X R)).
  { intros Hmd. rewrite (is_bn_value _ _ _ Ha Hmd), (is_bn_value _ _ _ Hb Hmd), (is_bn_value _ _ _ Hm Hmd), W1.
    fold w. fold X. cbn [grab rbind].
    assert (HmX : value_of (2 ^ Z.of_nat (limb_width (bparams m))) Mm = value_of X Mm).
    { destruct (W2 Hmd) as [->|H1]; [reflexivity|]. destruct Mm as [|y [|]]; try discriminate. cbn [value_of]. ring. }
    rewrite HmX. eexists; split; [reflexivity|]. split; [reflexivity|].
    assert (0 <= value_of X R) by now apply (range_value w).
    specialize (Hh Hmd). apply quot_rem_unique; try lia.
    apply Z.mul_nonneg_nonneg; (apply value_of_nonneg; [lia|]);
      [eapply Forall_impl; [|exact WA]|eapply Forall_impl; [|exact WB]]; cbv beta; lia. }
  apply alloc_range_awp'; auto.
  { intros Hmd. destruct (Hop Hmd) as (z & -> & _ & Hd & _). cbn [rbind]. exact Hd. }
  intros q Hq Pq WQ. rewrite Lm. apply alloc_range_awp'; auto.
  { intros Hmd. destruct (Hop Hmd) as (z & -> & _ & _ & Hd). cbn [rbind]. exact Hd. }
  intros r Hr Pr WR.
  rewrite <- (app_nil_r (mod_aux _ _ _ _ _)).
  assert (Prm : max_word (bparams r) = 2 ^ Z.of_nat w - 1) by (rewrite Pr; apply params_word).
  pose proof (fun HG' => @mod_check_awp _ md a b m q r A B Mm Q R w (Ret (q, r)) [] 
    (fun qr => is_bn rho md (fst qr) Q /\ is_bn rho md (snd qr) R /\ in_word (fst qr) Q /\ in_word (snd qr) R /\
    bparams (fst qr) = params_new w (length Q) /\ bparams (snd qr) = params_new w (length R)) 
    Ha Hb Hm Hq Hr WA WB WM WQ WR (eq_trans (f_equal max_word Pq) (params_word _ _)) HG') as HC.
  cbv zeta in HC. rewrite Prm in HC. fold M in HC. apply HC; auto.
  - unfold X in HXp. lia.
  - cbn [awp fst snd]. rewrite LR. auto 8.
Qed.

Lemma assert_product_mod_awp md a b m r A B Mm Q R :
  let w := limb_width (bparams a) in
  let X := 2 ^ Z.of_nat w in
  let M := mod_word a b m (length Q) (max_word (bparams r)) w in
  limb_width (bparams b) = w -> limb_width (bparams m) = w -> limb_width (bparams r) = w ->
  is_bn rho md a A -> is_bn rho md b B -> is_bn rho md m Mm -> is_bn rho md r R ->
  in_word a A -> in_word b B -> in_word m Mm -> in_word r R -> 0 <= max_word (bparams r) ->
  (1 <= w)%nat -> (w < NUM_BITS)%nat -> (1 <= length A)%nat -> (1 <= length B)%nat -> (1 <= length Mm)%nat ->
  length Q = (length A + length B)%nat ->
  Forall (fun v => 0 <= v < X) Q ->
  group_room M w ->
  value_of X A * value_of X B = value_of X Q * value_of X Mm + value_of X R ->
  sides_zero M w (convs A B) (rsum (convs Q Mm) R) ->
  (md = Honest -> 0 <= value_of X R < value_of X Mm) ->
  awp md rho (assert_product_mod a b m r)
    (range_aux w Q ++ mod_aux w M (convs A B) (convs Q Mm) R) (fun q =>
    is_bn rho md q Q /\ in_word q Q /\ bparams q = params_new w (length Q)).
Proof.
  intros w X M W1 W2 W3 Ha Hb Hm Hr WA WB WM WR Prm Hw Hw' LA LB LM LQ HQ HG HV HZ Hh.
  unfold assert_product_mod, width_agreement. rewrite W1, W2, W3. fold w. rewrite Nat.eqb_refl. cbn [lift bind].
  assert (La : length (limbs a) = length A) by apply (ev_length _ _ _ (proj1 Ha)).
  assert (Lb : length (limbs b) = length B) by apply (ev_length _ _ _ (proj1 Hb)).
  rewrite La, Lb, <- LQ.
  assert (HXp : 0 < X) by apply pow2_pos.
  apply alloc_range_awp'; auto; [lia| |].
  { intros Hmd. rewrite (is_bn_value _ _ _ Ha Hmd), (is_bn_value _ _ _ Hb Hmd), (is_bn_value _ _ _ Hm Hmd), W1, W2.
    fold w. fold X. cbn [grab rbind].
    specialize (Hh Hmd). apply (quot_rem_unique _ _ _ (value_of X R)); try lia.
    apply Z.mul_nonneg_nonneg; (apply value_of_nonneg; [lia|]);
      [eapply Forall_impl; [|exact WA]|eapply Forall_impl; [|exact WB]]; cbv beta; lia. }
  intros q Hq Pq WQ.
  rewrite <- (app_nil_r (mod_aux _ _ _ _ _)).
  pose proof (fun HG' => @mod_check_awp _ md a b m q r A B Mm Q R w (Ret q) [] 
    (fun q => is_bn rho md q Q /\ in_word q Q /\ bparams q = params_new w (length Q)) 
    Ha Hb Hm Hq Hr WA WB WM WQ WR (eq_trans (f_equal max_word Pq) (params_word _ _)) HG') as HC.
  cbv zeta in HC. fold M in HC. apply HC; auto.
  - lia.
  - cbn [awp]. auto 8.
Qed.

Lemma red_mod_awp md a m A Mm Q R :
  let w := limb_width (bparams a) in
  let X := 2 ^ Z.of_nat w in
  let M := Z.max (max_word (bparams a))
     (product_word (length Q) (2 ^ Z.of_nat w - 1) (length Mm) (max_word (bparams m)) + (2 ^ Z.of_nat w - 1)) in
  limb_width (bparams m) = w ->
  is_bn rho md a A -> is_bn rho md m Mm -> in_word a A -> in_word m Mm ->
  (1 <= w)%nat -> (w < NUM_BITS)%nat -> (1 <= length A)%nat -> (1 <= length Mm)%nat ->
  length Q = q_limbs (n_bits_of a) (min_bits (bparams m)) w -> length R = length Mm ->
  Forall (fun v => 0 <= v < X) Q -> Forall (fun v => 0 <= v < X) R ->
  group_room M w ->
  value_of X A = value_of X Q * value_of X Mm + value_of X R ->
  sides_zero M w A (rsum (convs Q Mm) R) ->
  (md = Honest -> value_of X R < value_of X Mm) ->
  awp md rho (red_mod a m)
    (range_aux w Q ++ range_aux w R ++ convs Q Mm ++ regroup_aux M w A (rsum (convs Q Mm) R)) (fun r =>
    is_bn rho md r R /\ in_word r R /\ bparams r = params_new w (length R)).
Proof.
  intros w X M W2 Ha Hm WA WM Hw Hw' LA LM LQ LR HQ HR HG HV HZ Hh.
  unfold red_mod, width_agreement. rewrite W2. fold w. rewrite Nat.eqb_refl. cbn [lift bind].
  rewrite !n_bits_ok by (rewrite ?(proj1 (proj2 (proj2 Ha))); auto). cbn [lift bind].
  unfold quotient_limbs. rewrite (proj2 (Nat.eqb_neq w 0)) by lia. cbn [lift bind].
  fold (q_limbs (n_bits_of a) (min_bits (bparams m)) w). rewrite <- LQ.
  assert (Lm : length (limbs m) = length Mm) by apply (ev_length _ _ _ (proj1 Hm)).
  assert (LQ1 : (1 <= length Q)%nat) by (rewrite LQ; apply Nat.le_add_l).
  assert (HXp : 0 < X) by apply pow2_pos.
  assert (Hop : md = Honest -> exists z, (let? x := grab (value a) in
                  let? z := grab (value m) in Ok (x, z)) = Ok (value_of X A, z) /\
      z = value_of X Mm /\ bigint_div (value_of X A) z = Ok (value_of X Q) /\
      bigint_rem (value_of X A) z = Ok (value_of X R)).
  { intros Hmd. rewrite (is_bn_value _ _ _ Ha Hmd), (is_bn_value _ _ _ Hm Hmd), W2.
    fold w. fold X. cbn [grab rbind]. eexists; split; [reflexivity|]. split; [reflexivity|].
    assert (0 <= value_of X R) by now apply (range_value w).
    specialize (Hh Hmd). apply quot_rem_unique; try lia.
    apply value_of_nonneg; [lia|]. eapply Forall_impl; [|exact WA]. cbv beta; lia. }
  apply alloc_range_awp'; auto.
  { intros Hmd. destruct (Hop Hmd) as (z & -> & _ & Hd & _). cbn [rbind]. exact Hd. }
  intros q Hq Pq WQ. rewrite Lm. apply alloc_range_awp'; auto.
  { intros Hmd. destruct (Hop Hmd) as (z & -> & _ & _ & Hd). cbn [rbind]. exact Hd. }
  intros r Hr Pr WR.
  assert (Prm : max_word (bparams r) = 2 ^ Z.of_nat w - 1) by (rewrite Pr; apply params_word).
  assert (Pqm : max_word (bparams q) = 2 ^ Z.of_nat w - 1) by (rewrite Pq; apply params_word).
  assert (Lq : length (limbs q) = length Q) by apply (ev_length _ _ _ (proj1 Hq)).
  assert (HRM : right_max_word q m r = product_word (length Q) (2 ^ Z.of_nat w - 1) (length Mm) (max_word (bparams m)) + (2 ^ Z.of_nat w - 1)).
  { unfold right_max_word, product_word. rewrite Lq, Lm, Pqm, Prm. reflexivity. }
  pose proof (in_word_max _ _ WQ LQ1). pose proof (in_word_max _ _ WM LM).
  assert (BC : Forall (fun d => 0 <= d <= product_word (length Q) (2 ^ Z.of_nat w - 1) (length Mm) (max_word (bparams m))) (convs Q Mm)).
  { rewrite <- Pqm. unfold product_word. apply conv_list_bound; auto. }
  assert (C0 : 0 <= product_word (length Q) (2 ^ Z.of_nat w - 1) (length Mm) (max_word (bparams m))).
  { unfold product_word. apply Z.mul_nonneg_nonneg; [apply Z.mul_nonneg_nonneg|]; lia. }
  assert (BR : Forall (fun d => 0 <= d <= right_max_word q m r) (rsum (convs Q Mm) R)).
  { rewrite HRM. apply rsum_bound; auto; try lia. rewrite <- Prm. exact WR. }
  assert (HM : M < modulus) by (apply (group_room_word M w); auto; lia).
  apply awp_bind. apply awp_ns.
  eapply awp_mono; [apply (product_awp md _ _ Q Mm (product_word (length Q) (2 ^ Z.of_nat w - 1) (length Mm) (max_word (bparams m)))); auto using is_bn_vals; lia|].
  intros rp Hrp. cbv beta in Hrp. apply awp_bind_all. apply awp_ns.
  assert (HS : vals_ok md (poly_sum rp (to_poly r)) (rsum (convs Q Mm) R)).
  { eapply sum_vals; eauto using is_bn_vals. lia. }
  pose proof (regroup_awp rho one md a
     (from_poly (poly_sum rp (to_poly r)) w (right_max_word q m r)) A (rsum (convs Q Mm) R)) as HX.
  cbv zeta in HX. rewrite !from_poly_bparams in HX. cbn [limb_width max_word] in HX. fold w in HX. rewrite HRM in HX at 1 2 3 4. 
  eapply awp_mono; [rewrite HRM in *; apply HX; auto; clear HX|].
  - apply Ha.
  - apply HS.
  - apply Ha.
  - eapply from_poly_lv; eauto.
  - rewrite rsum_length, convs_length. lia.
  - rewrite rsum_value, convs_value. exact HV.
  - intros Hmd. unfold from_poly. cbn [limb_values]. split; [now apply Ha|now apply HS].
  - intros _ _. astep. rewrite LR. auto.
Qed.

Lemma divides_awp md a b A B Q :
  let w := limb_width (bparams a) in
  let X := 2 ^ Z.of_nat w in
  let M := Z.max (product_word (length A) (max_word (bparams a)) (length B) (2 ^ Z.of_nat w - 1)) (max_word (bparams b)) in
  limb_width (bparams b) = w ->
  is_bn rho md a A -> is_bn rho md b B -> in_word a A -> in_word b B ->
  (1 <= w)%nat -> (w < NUM_BITS)%nat -> (1 <= length A)%nat -> (1 <= length B)%nat ->
  length Q = length B -> Forall (fun v => 0 <= v < X) Q ->
  group_room M w ->
  value_of X A * value_of X Q = value_of X B -> (md = Honest -> 0 < value_of X A) ->
  sides_zero M w (convs A Q) B ->
  awp md rho (divides a b)
    (range_aux w Q ++ convs A Q ++ regroup_aux M w (convs A Q) B) (fun _ => True).
Proof.
  intros w X M W2 Ha Hb WA WB Hw Hw' LA LB LQ HQ HG HV H0 HZ.
  unfold divides, width_agreement. rewrite W2. fold w. rewrite Nat.eqb_refl. cbn [lift bind].
  assert (Lb : n_limbs (bparams b) = length B) by apply Hb. rewrite Lb, <- LQ.
  apply alloc_range_awp'; auto; [lia| |].
  { intros Hmd. rewrite (is_bn_value _ _ _ Ha Hmd), (is_bn_value _ _ _ Hb Hmd), W2.
    fold w. fold X. cbn [grab rbind]. specialize (H0 Hmd).
    unfold is_multiple_of, bigint_div. rewrite (proj2 (Z.eqb_neq _ 0)) by lia. rewrite <- HV.
    rewrite Z.mul_comm, Z.rem_mul, Z.quot_mul by lia. reflexivity. }
  intros q Hq Pq WQ. apply awp_ns.
  assert (HMM : Z.max (mult_word a q) (max_word (bparams b)) = M).
  { unfold mult_word, M. rewrite Pq, params_word. cbn [n_limbs params_new]. rewrite (proj1 (proj2 (proj2 Ha))), LQ. reflexivity. }
  pose proof (verify_mult_awp md a q b A Q B) as HVM. cbv zeta in HVM. fold w in HVM. rewrite HMM in HVM.
  apply HVM; auto; try lia.
  - rewrite Pq. reflexivity.
  - unfold sides_zero in HZ. rewrite convs_length in HZ. exact HZ.
Qed.
End Rho.
End MultC.
