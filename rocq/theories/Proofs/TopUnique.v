(** C101 from the calculus of Proofs/Unique.v. *)
From Coq Require Import String ZArith Znumtheory Bool List Lia Setoid Morphisms ZifyBool ZifyNat.
From Verif.Model Require Import Base CS Bellpepper Util Poly Bignat Gadget Fields.
From Verif.Spec Require Import Spec SpecExpr SpecUnique.
From Verif.Proofs Require Import Field Arith Convert Limbs Wp Lc BitNum PolyP BoolP BignatEq BignatAlloc Group Carry Regroup Mult MultC TopBits TopPoly TopBignat1 PureOps TopPure Owp Pwp
  TopBignat2 MuxP MedianP MinBits SubP Ewp Relation Expr SizeP Unique UniqueG UniqueC UniqueD.
Import ListNotations.
Local Open Scope Z_scope.

Section TopUnique.
Context {E : Env} {W : Wf E}.

Lemma over_leq s r1 r2 b : alike s r1 r2 -> over s b -> Forall (leq r1 r2) (limbs b).
Proof. intros HA HO. eapply Forall_impl; [|exact HO]. intros l. now apply made_of_leq. Qed.

Lemma twice_uwp {A} wit (m : prog A) s a s' r1 r2 Q : twice wit m s a s' r1 r2 -> uwp r1 r2 m Q ->
  exists l, Q a l /\ (Forall (same r1 r2) l -> alike s' r1 r2).
Proof. intros (Hr & S1 & S2 & Ha) H. destruct (uwp_run r1 r2 wit m s a s' Q Hr S1 S2 H) as (l & HQ & K & _). eauto. Qed.
Lemma twice_all {A} wit (m : prog A) s a s' r1 r2 : twice wit m s a s' r1 r2 -> uwp r1 r2 m (fun _ l => Forall (same r1 r2) l) -> alike s' r1 r2.
Proof. intros H HU. destruct (twice_uwp _ _ _ _ _ _ _ _ H HU) as (l & HQ & K). auto. Qed.
Lemma twice_one {A} wit (m : prog A) s a s' r1 r2 : twice wit m s a s' r1 r2 -> r1 ONE = 1 /\ r2 ONE = 1 /\ alike s r1 r2.
Proof. intros (_ & [H1 _] & [H2 _] & H). auto. Qed.
Ltac begin H := destruct (twice_one _ _ _ _ _ _ _ H) as (one1 & one2 & Ha).

Lemma top_unique_bits wit n k s bv s' r1 r2 : twice wit (num_decompose n k) s bv s' r1 r2 ->
  made_of s (n_lc n) -> (k < NUM_BITS)%nat -> alike s' r1 r2.
Proof.
  intros H HN HK. begin H. apply (twice_all _ _ _ _ _ _ _ H). eapply uwp_mono; [apply num_decompose_uwp; auto|cbv beta; tauto].
  eapply made_of_leq; eauto.
Qed.
Lemma top_unique_fits wit n k s u s' r1 r2 : twice wit (fits_in_bits n k) s u s' r1 r2 ->
  made_of s (n_lc n) -> (k < NUM_BITS)%nat -> alike s' r1 r2.
Proof. intros H HN HK. begin H. apply (twice_all _ _ _ _ _ _ _ H). apply fits_in_bits_uwp; auto. eapply made_of_leq; eauto. Qed.
Lemma top_unique_range wit b s u s' r1 r2 : twice wit (assert_well_formed b) s u s' r1 r2 ->
  over s b -> (limb_width (bparams b) < NUM_BITS)%nat -> alike s' r1 r2.
Proof. intros H HN HK. begin H. apply (twice_all _ _ _ _ _ _ _ H). apply assert_well_formed_uwp; auto. eapply over_leq; eauto. Qed.
Lemma top_unique_number_bits wit b s bv s' r1 r2 : twice wit (bn_decompose b) s bv s' r1 r2 ->
  over s b -> (limb_width (bparams b) < NUM_BITS)%nat -> alike s' r1 r2.
Proof.
  intros H HN HK. begin H. apply (twice_all _ _ _ _ _ _ _ H). eapply uwp_mono; [apply bn_decompose_uwp; auto|cbv beta; tauto]. eapply over_leq; eauto.
Qed.
Lemma top_unique_top_bits wit b k s c s' r1 r2 :
  twice wit (enforce_full_bits b) s c s' r1 r2 \/ twice wit (enforce_min_bits b k) s c s' r1 r2 ->
  over s b -> (limb_width (bparams b) < NUM_BITS)%nat -> alike s' r1 r2.
Proof.
  intros [H|H] HN HK; begin H; apply (twice_all _ _ _ _ _ _ _ H); [apply full_bits_uwp|apply min_bits_uwp]; auto; eapply over_leq; eauto.
Qed.
Lemma top_unique_from_num wit n w k s b s' r1 r2 : twice wit (from_num n w k) s b s' r1 r2 ->
  made_of s (n_lc n) -> (w < NUM_BITS)%nat -> (w * k < NUM_BITS)%nat -> alike s' r1 r2 /\ wires r1 (limbs b) = wires r2 (limbs b).
Proof.
  intros H HN HW HK. begin H. destruct (twice_uwp _ _ _ _ _ _ _ _ H (from_num_uwp r1 r2 one1 one2 n w k HW HK (made_of_leq _ _ _ _ Ha HN))) as (l & [H1 H2] & K).
  split; [auto|]. now apply leq_wires.
Qed.
Lemma top_unique_copies wit b s (u : unit) (l : list allocated_num) s' r1 r2 :
  twice wit (bn_inputize b) s u s' r1 r2 \/ twice wit (gadget_inputize b) s u s' r1 r2 \/ twice wit (as_nums b) s l s' r1 r2 ->
  over s b -> alike s' r1 r2.
Proof.
  intros [H|[H|H]] HN; begin H; apply (twice_all _ _ _ _ _ _ _ H); [apply inputize_uwp|apply gadget_inputize_uwp|apply as_nums_uwp]; auto; eapply over_leq; eauto.
Qed.
Lemma top_unique_copy wit n s a s' r1 r2 : twice wit (as_sapling_allocated_num n) s a s' r1 r2 -> made_of s (n_lc n) -> alike s' r1 r2.
Proof.
  intros H HN. begin H. apply (twice_all _ _ _ _ _ _ _ H). eapply uwp_mono; [apply as_sapling_uwp; auto|cbv beta; tauto]. eapply made_of_leq; eauto.
Qed.
Lemma top_unique_poly wit p q s o s' r1 r2 : twice wit (alloc_product p q) s o s' r1 r2 ->
  Forall (made_of s) (p_coeffs p) -> Forall (made_of s) (p_coeffs q) ->
  Z.of_nat (length (p_coeffs p) + length (p_coeffs q)) <= modulus ->
  alike s' r1 r2 /\ wires r1 (p_coeffs o) = wires r2 (p_coeffs o).
Proof.
  intros H HP HQ HN. begin H. pose proof mod_pos as MP.
  assert (LP : Forall (leq r1 r2) (p_coeffs p)) by (eapply Forall_impl; [|exact HP]; intros l0; now apply made_of_leq).
  assert (LQ : Forall (leq r1 r2) (p_coeffs q)) by (eapply Forall_impl; [|exact HQ]; intros l0; now apply made_of_leq).
  destruct (twice_uwp _ _ _ _ _ _ _ _ H (alloc_product_uwp r1 r2 p q LP LQ ltac:(lia))) as (l & [H1 H2] & K).
  split; [auto|]. now apply leq_wires.
Qed.
Lemma top_unique_comparison wit a b s u s' r1 r2 : twice wit (equal_when_carried_regroup a b) s u s' r1 r2 ->
  over s a -> over s b -> group_no_wrap (Z.max (max_word (bparams a)) (max_word (bparams b))) (limb_width (bparams a)) -> alike s' r1 r2.
Proof. intros H HA HB HG. begin H. apply (twice_all _ _ _ _ _ _ _ H). apply regroup_uwp; auto; eapply over_leq; eauto. Qed.
Lemma top_unique_product wit a b s p s' r1 r2 :
  let w := limb_width (bparams a) in
  let M := Z.max (product_word (length (limbs a)) (max_word (bparams a)) (length (limbs b)) (max_word (bparams b))) (2 ^ Z.of_nat w - 1) in
  twice wit (mult a b) s p s' r1 r2 -> over s a -> over s b -> well_shaped a -> well_shaped b -> bounded r1 a -> bounded r1 b ->
  Z.of_nat (length (limbs a) + length (limbs b)) <= modulus -> (w < NUM_BITS)%nat -> group_no_wrap M w ->
  alike s' r1 r2 /\ wires r1 (limbs p) = wires r2 (limbs p).
Proof.
  intros w M H OA OB [SA _] [SB _] BA BB HN HW HG. begin H. pose proof mod_pos as MP.
  destruct (twice_uwp _ _ _ _ _ _ _ _ H (mult_uwp r1 r2 one1 one2 a b (over_leq _ _ _ _ Ha OA) (over_leq _ _ _ _ Ha OB) BA BB SA SB ltac:(lia) HW
    ltac:(unfold mult_word; rewrite SA, SB; exact HG))) as (l & [H1 H2] & K).
  split; [auto|]. now apply leq_wires.
Qed.
Lemma top_unique_difference wit n1 n2 a b s d s' r1 r2 :
  let w := limb_width (bparams a) in
  twice wit (let! d := ns n1 (Bignat.sub a b) in let! _ := ns n2 (assert_well_formed d) in Ret d) s d s' r1 r2 ->
  over s a -> over s b -> well_shaped a -> well_shaped b -> bounded r1 a -> bounded r1 b -> 0 <= max_word (bparams b) ->
  (1 <= w)%nat -> (w < NUM_BITS)%nat -> group_no_wrap (Z.max (max_word (bparams a)) (max_word (bparams b) + (2 ^ Z.of_nat w - 1))) w ->
  alike s' r1 r2 /\ wires r1 (limbs d) = wires r2 (limbs d).
Proof.
  intros w H OA OB [SA _] [SB _] BA BB B0 HW HW' HG. begin H.
  destruct (twice_uwp _ _ _ _ _ _ _ _ H (sub_checked_uwp r1 r2 one1 one2 n1 n2 a b (over_leq _ _ _ _ Ha OA) (over_leq _ _ _ _ Ha OB) BA BB SA SB B0 HW HW' HG)) as (l & [H1 H2] & K).
  split; [auto|]. now apply leq_wires.
Qed.
Lemma top_unique_choice wit x i0 i1 s o s' r1 r2 : twice wit (mux x i0 i1) s o s' r1 r2 ->
  made_of s (b_lc x) -> over s i0 -> over s i1 -> well_shaped i0 -> well_shaped i1 ->
  alike s' r1 r2 /\ wires r1 (limbs o) = wires r2 (limbs o).
Proof.
  intros H OX O0 O1 [S0 _] [S1 _]. begin H.
  destruct (twice_uwp _ _ _ _ _ _ _ _ H (mux_uwp r1 r2 x i0 i1 (made_of_leq _ _ _ _ Ha OX) (over_leq _ _ _ _ Ha O0) (over_leq _ _ _ _ Ha O1) S0 S1)) as (l & [[H1 _] H2] & K).
  split; [auto|]. now apply leq_wires.
Qed.
Lemma top_unique_switch wit x i0 i1 s o s' r1 r2 : twice wit (switch x i0 i1) s o s' r1 r2 ->
  made_of s (b_lc x) -> over s i0 -> over s i1 -> well_shaped i0 -> well_shaped i1 -> alike s' r1 r2.
Proof.
  intros H OX O0 O1 [S0 _] [S1 _]. begin H. apply (twice_all _ _ _ _ _ _ _ H).
  eapply uwp_mono; [apply switch_uwp; eauto using made_of_leq, over_leq|cbv beta; tauto].
Qed.
Lemma top_unique_tree wit bits ins s o s' r1 r2 : twice wit (mux_tree bits ins) s o s' r1 r2 ->
  Forall (fun b => made_of s (b_lc b)) bits -> Forall (over s) ins -> Forall well_shaped ins ->
  alike s' r1 r2 /\ wires r1 (limbs o) = wires r2 (limbs o).
Proof.
  intros H HB HI HS. begin H.
  assert (LB : Forall (fun b => leq r1 r2 (b_lc b)) bits) by (eapply Forall_impl; [|exact HB]; intros b; now apply made_of_leq).
  assert (LI : Forall (fun b => Forall (leq r1 r2) (limbs b) /\ shaped b) ins).
  { rewrite Forall_forall in *. intros b Hb. split; [eapply over_leq; eauto|apply (HS b Hb)]. }
  destruct (twice_uwp _ _ _ _ _ _ _ _ H (mux_tree_uwp r1 r2 bits ins LB LI)) as (l & [[H1 _] H2] & K).
  split; [auto|]. now apply leq_wires.
Qed.
Lemma top_unique_logic wit a b s c s' r1 r2 :
  twice wit (bool_and a b) s c s' r1 r2 \/ twice wit (bool_or a b) s c s' r1 r2 ->
  made_of s (bool_lc a 1) -> made_of s (bool_lc b 1) -> alike s' r1 r2 /\ feval r1 (bool_lc c 1) = feval r2 (bool_lc c 1).
Proof.
  intros H HA HB. assert (K : exists l, det r1 r2 c /\ Forall (same r1 r2) l /\ (Forall (same r1 r2) l -> alike s' r1 r2)).
  { destruct H as [H|H]; begin H; pose proof (made_of_leq _ _ _ _ Ha HA) as DA; pose proof (made_of_leq _ _ _ _ Ha HB) as DB;
    [destruct (twice_uwp _ _ _ _ _ _ _ _ H (and_uwp r1 r2 one1 one2 a b DA DB)) as (l & [H1 H2] & K)|
     destruct (twice_uwp _ _ _ _ _ _ _ _ H (or_uwp r1 r2 one1 one2 a b DA DB)) as (l & [H1 H2] & K)]; eauto. }
  destruct K as (l & H1 & H2 & H3). split; [auto|]. apply eqp_eq. exact H1.
Qed.
Lemma top_unique_equal wit a b s c s' r1 r2 : twice wit (is_equal a b) s c s' r1 r2 -> over s a -> over s b ->
  feval r1 (bool_lc c 1) = feval r2 (bool_lc c 1) /\
  (Forall2 (fun x y => x <> y) (wires r1 (limbs a)) (wires r1 (limbs b)) -> alike s' r1 r2).
Proof.
  intros H OA OB. begin H.
  destruct (twice_uwp _ _ _ _ _ _ _ _ H (is_equal_uwp r1 r2 one1 one2 a b (over_leq _ _ _ _ Ha OA) (over_leq _ _ _ _ Ha OB))) as (l & [H1 H2] & K).
  split; [apply eqp_eq; exact H1|]. intros HD. apply K, H2. intros i Hi HE. unfold wires in HD. clear -HD Hi HE.
  revert i HD Hi HE. generalize (limbs b) as ys. induction (limbs a) as [|x xs IH]; intros ys i HD Hi HE; [cbn in Hi; lia|].
  destruct ys as [|y ys]; [inversion HD|]. cbn [map] in HD. inversion HD as [|? ? ? ? N1 N2]. subst.
  destruct i as [|i]; cbn [nth] in HE.
  - apply N1. unfold feval. now apply eqp_eq.
  - apply (IH ys i N2); auto. cbn [length] in Hi. lia.
Qed.
Lemma top_unique_quotient wit a b m r s q s' r1 r2 :
  let w := limb_width (bparams a) in
  let X := 2 ^ Z.of_nat w in
  twice wit (assert_product_mod a b m r) s q s' r1 r2 -> over s a -> over s b -> over s m -> over s r ->
  bounded r1 a -> bounded r1 b -> bounded r1 m -> bounded r1 r -> 0 <= max_word (bparams r) ->
  Z.of_nat (length (limbs a) + length (limbs b) + length (limbs m)) <= modulus -> (w < NUM_BITS)%nat ->
  group_no_wrap (Z.max (product_word (length (limbs a)) (max_word (bparams a)) (length (limbs b)) (max_word (bparams b)))
    (product_word (length (limbs a) + length (limbs b)) (X - 1) (length (limbs m)) (max_word (bparams m)) + max_word (bparams r))) w ->
  int_of r1 m <> 0 -> alike s' r1 r2 /\ wires r1 (limbs q) = wires r2 (limbs q).
Proof.
  intros w X H OA OB OM OR BA BB BM BR R0 HN HW HG NZ. begin H. pose proof mod_pos as MP.
  destruct (twice_uwp _ _ _ _ _ _ _ _ H (apm_uwp r1 r2 one1 one2 a b m r (over_leq _ _ _ _ Ha OA) (over_leq _ _ _ _ Ha OB) (over_leq _ _ _ _ Ha OM) (over_leq _ _ _ _ Ha OR)
    BA BB BM BR R0 ltac:(lia) HW HG NZ)) as (l & [H1 H2] & K).
  split; [auto|]. now apply leq_wires.
Qed.
Lemma top_unique_divides wit a b s u s' r1 r2 :
  let w := limb_width (bparams a) in
  twice wit (divides a b) s u s' r1 r2 -> over s a -> over s b -> well_shaped a -> well_shaped b -> bounded r1 a -> bounded r1 b ->
  Z.of_nat (length (limbs a) + length (limbs b)) <= modulus -> (w < NUM_BITS)%nat ->
  group_no_wrap (Z.max (product_word (length (limbs a)) (max_word (bparams a)) (length (limbs b)) (2 ^ Z.of_nat w - 1)) (max_word (bparams b))) w ->
  int_of r1 a <> 0 -> alike s' r1 r2.
Proof.
  intros w H OA OB [SA _] [SB _] BA BB HN HW HG NZ. begin H. pose proof mod_pos as MP. apply (twice_all _ _ _ _ _ _ _ H).
  apply divides_uwp; auto; try (eapply over_leq; eauto). lia.
Qed.
Lemma top_unique_mult_mod wit a b m s q r s' r1 r2 :
  let w := limb_width (bparams a) in
  let X := 2 ^ Z.of_nat w in
  twice wit (mult_mod a b m) s (q, r) s' r1 r2 -> over s a -> over s b -> over s m ->
  bounded r1 a -> bounded r1 b -> bounded r1 m -> limb_width (bparams m) = w ->
  Z.of_nat (length (limbs a) + length (limbs b)) <= modulus -> Z.of_nat (length (limbs q) + length (limbs m)) <= modulus -> (w < NUM_BITS)%nat ->
  group_no_wrap (Z.max (product_word (length (limbs a)) (max_word (bparams a)) (length (limbs b)) (max_word (bparams b)))
     (product_word (length (limbs q)) (X - 1) (length (limbs m)) (max_word (bparams m)) + (X - 1))) w ->
  int_of r1 r < int_of r1 m -> int_of r2 r < int_of r1 m ->
  alike s' r1 r2 /\ wires r1 (limbs q) = wires r2 (limbs q) /\ wires r1 (limbs r) = wires r2 (limbs r).
Proof.
  intros w X H OA OB OM BA BB BM WM HN HN' HW HG L1 L2. begin H. pose proof mod_pos as MP.
  destruct (twice_uwp _ _ _ _ _ _ _ _ H (mult_mod_uwp r1 r2 one1 one2 a b m (over_leq _ _ _ _ Ha OA) (over_leq _ _ _ _ Ha OB) (over_leq _ _ _ _ Ha OM)
    BA BB BM ltac:(lia) HW)) as (l & H1 & K).
  destruct H1 as (H1 & H2 & H3); [lia|exact HG|exact WM|exact L1|exact L2|]. split; [auto|]. split; now apply leq_wires.
Qed.
Lemma top_unique_red_mod wit a m s r s' r1 r2 :
  let w := limb_width (bparams a) in
  let X := 2 ^ Z.of_nat w in
  let ql := q_limbs (n_bits_of a) (min_bits (bparams m)) w in
  twice wit (red_mod a m) s r s' r1 r2 -> over s a -> over s m -> bounded r1 a -> bounded r1 m ->
  Z.of_nat (ql + length (limbs m)) <= modulus -> (w < NUM_BITS)%nat ->
  group_no_wrap (Z.max (max_word (bparams a)) (product_word ql (X - 1) (length (limbs m)) (max_word (bparams m)) + (X - 1))) w ->
  int_of r1 r < int_of r1 m -> int_of r2 r < int_of r1 m ->
  alike s' r1 r2 /\ wires r1 (limbs r) = wires r2 (limbs r).
Proof.
  intros w X ql H OA OM BA BM HN HW HG L1 L2. begin H. pose proof mod_pos as MP.
  assert (HN2 : Z.of_nat (ql + length (limbs m) - 1) < modulus) by (clear -HN MP; clearbody ql; lia).
  destruct (twice_uwp _ _ _ _ _ _ _ _ H (red_mod_uwp r1 r2 one1 one2 a m (over_leq _ _ _ _ Ha OA) (over_leq _ _ _ _ Ha OM) BA BM HW
    ltac:(intros ql' Hq; apply quotient_limbs_eq in Hq; subst ql'; split; [exact HN2|exact HG]))) as (l & H1 & K).
  destruct (H1 L1 L2) as (H2 & H3). split; [auto|]. now apply leq_wires.
Qed.
Lemma top_unique_circuit wit w ins xs bs cs e s b s' r1 r2 :
  twice wit (circuit xs bs e) s b s' r1 r2 ->
  (1 <= w)%nat -> (w < NUM_BITS)%nat -> ins_ok ins -> Forall2 (of_shape w) ins xs -> Forall (bounded r1) xs -> Forall (over s) xs ->
  Forall2 (fun c x => feval r1 (b_lc c) = Z.b2z x) bs cs -> Forall (fun c => made_of s (b_lc c)) bs ->
  in_room w ins (length bs) e ->
  alike s' r1 r2 /\ wires r1 (limbs b) = wires r2 (limbs b).
Proof.
  intros H Hw HwN HI HX HB HO HC HM HR. begin H.
  assert (HX' : forall i x, nth_error xs i = Some x -> of_shape w (nth i ins (0%nat, 0%Z)) x /\ bounded r1 x /\ Forall (leq r1 r2) (limbs x) /\
     int_of r1 x = nth i (map (int_of r1) xs) 0).
  { intros i x Hx. assert (Hin : In x xs) by (eapply nth_error_In; eauto). rewrite Forall_forall in HB, HO. split; [|split; [auto|split]].
    - clear -HX Hx. revert i Hx. induction HX as [|p y ins xs Hp _ IH]; intros i Hx; destruct i as [|i]; cbn in Hx |- *; try discriminate.
      + injection Hx as <-. exact Hp.
      + now apply IH.
    - eapply over_leq; eauto.
    - symmetry. apply nth_error_nth with (d := 0). now rewrite nth_error_map, Hx. }
  assert (HB' : forall i c, nth_error bs i = Some c -> wire_bit r1 (b_lc c) (nth i cs false) /\ leq r1 r2 (b_lc c)).
  { intros i c Hc. split.
    - clear -HC Hc W. revert i Hc. induction HC as [|c0 x bs cs Hp _ IH]; intros i Hc; destruct i as [|i]; cbn in Hc |- *; try discriminate.
      + injection Hc as <-. unfold wire_bit. rewrite <- Hp. unfold feval. now rewrite eqp_fmk.
      + now apply IH.
    - rewrite Forall_forall in HM. eapply made_of_leq; eauto. apply HM. eapply nth_error_In; eauto. }
  destruct (twice_uwp _ _ _ _ _ _ _ _ H (circuit_uwp r1 r2 one1 one2 w ins HI Hw HwN xs bs _ cs HX' HB' e HR)) as (l & [H1 H2] & K).
  split; [auto|]. now apply leq_wires.
Qed.
End TopUnique.

(** The inverse that [equals] allocates is free when the two numbers are equal. *)
Lemma top_unique_inverse ck : let E := pallas_env ck in exists s a b c s' r1 r2,
  run false (let! a := an_alloc (Ok 5) in let! b := an_alloc (Ok 5) in Ret (a, b)) st_init = (Ok (a, b), s) /\
  twice false (equals a b) s c s' r1 r2 /\ ~ alike s' r1 r2.
Proof.
  intros E. do 5 eexists. exists (asg (mkst [1] [5; 5; 1; 0; 1; 0] [] [] [])), (asg (mkst [1] [5; 5; 1; 0; 7; 0] [] [] [])).
  split; [vm_compute; reflexivity|]. split; [split; [vm_compute; reflexivity|split; [|split]]|].
  - apply satb_sat. destruct ck; vm_compute; reflexivity.
  - apply satb_sat. destruct ck; vm_compute; reflexivity.
  - split; intros n Hn; cbn in Hn.
    + reflexivity.
    + destruct n as [|[|n]]; [reflexivity|reflexivity|lia].
  - intros [_ H]. specialize (H 4%nat). cbn in H. specialize (H ltac:(lia)). destruct ck; vm_compute in H; discriminate.
Qed.
