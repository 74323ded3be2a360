(** The gadgets whose wires are determined (C101). *)
From Coq Require Import String ZArith Znumtheory Bool List Lia Setoid Morphisms ZifyBool ZifyNat.
From Verif.Model Require Import Base CS Bellpepper Util Poly Bignat Gadget.
From Verif.Spec Require Import Spec SpecExpr SpecUnique.
From Verif.Proofs Require Import Field Arith Convert Limbs Wp Lc BitNum PolyP BoolP BignatEq BignatAlloc Group Carry Regroup Mult MultC TopBits TopPoly TopBignat1 PureOps TopPure Owp Pwp
  TopBignat2 MuxP MedianP MinBits SubP Ewp Relation Expr Unique.
Import ListNotations.
Local Open Scope Z_scope.

Ltac fsame := cbn [app]; rewrite ?app_nil_r; repeat first [assumption | apply Forall_nil | apply Forall_app; split | apply Forall_cons].

Section UniqueG.
Context {E : Env} {W : Wf E}.
Context (r1 r2 : assignment) (one1 : r1 ONE = 1) (one2 : r2 ONE = 1).
Notation uwp := (uwp r1 r2).
Notation same := (same r1 r2).
Notation leq := (leq r1 r2).

Lemma leq_var x : leq (lc_var x) <-> same x.
Proof. unfold leq, same. now lcs. Qed.
Lemma leq_add a b : leq a -> leq b -> leq (lc_add a b).
Proof. unfold leq. intros H1 H2. lcs. now rewrite H1, H2. Qed.
Lemma leq_sub a b : leq a -> leq b -> leq (lc_sub a b).
Proof. unfold leq. intros H1 H2. lcs. now rewrite H1, H2. Qed.
Lemma leq_scale c a : leq a -> leq (lc_scale c a).
Proof. unfold leq. intros H. lcs. now rewrite H. Qed.
Lemma leq_zero : leq lc_zero.
Proof. unfold leq. reflexivity. Qed.
Lemma leq_one : same ONE.
Proof. unfold same. now rewrite one1, one2. Qed.
Lemma leq_const c : leq (lc_const c).
Proof. unfold leq. now rewrite !lc_eval_const by auto. Qed.
Lemma leq_nth ls i : Forall leq ls -> leq (nth i ls lc_zero).
Proof.
  intros H. destruct (Nat.lt_ge_cases i (length ls)); [|rewrite nth_overflow by lia; apply leq_zero].
  rewrite Forall_forall in H. apply H, nth_In; auto.
Qed.
Lemma leq_wires ls : Forall leq ls <-> wires r1 ls = wires r2 ls.
Proof.
  unfold wires. induction ls as [|l ls IH]; cbn [map]; [split; auto|]. split.
  - intros H. inversion H; subst. f_equal; [now apply eqp_eq|tauto].
  - intros H. assert (H1 : feval r1 l = feval r2 l) by congruence. assert (H2 : map (feval r1) ls = map (feval r2) ls) by congruence.
    constructor; [now apply eqp_eq|tauto].
Qed.
Lemma leq_ev ls vs : ev r1 ls vs -> ev r2 ls vs -> Forall leq ls.
Proof.
  intros H. induction H as [|l v ls vs H _ IH]; intros H2; inversion H2 as [|? ? ? ? K1 K2]; subst; constructor; auto. unfold leq. now rewrite H, K1.
Qed.
Lemma Forall_concat_in {A} (P : A -> Prop) ls : Forall (Forall P) ls -> Forall P (List.concat ls).
Proof. induction 1; simpl; [constructor|]. apply Forall_app; auto. Qed.
Lemma Forall2_snd {A B} (R : A -> B -> Prop) (P : B -> Prop) l bs : Forall2 R l bs -> (forall a b, R a b -> P b) -> Forall P bs.
Proof. induction 1; intros; constructor; eauto. Qed.

(** ** Bits *)
Lemma bools_same b1 b2 (xs : list var) : Forall2 (fun x b => eqp (r1 x) (Z.b2z b)) xs b1 -> Forall2 (fun x b => eqp (r2 x) (Z.b2z b)) xs b2 ->
  b1 = b2 -> Forall same xs.
Proof.
  intros H1 H2 ->. revert b2 H1 H2. induction xs as [|x xs IH]; intros bs H1 H2; inversion H1 as [|? ? ? ? A1 A2]; subst; inversion H2 as [|? ? ? ? B1 B2]; subst; constructor; eauto.
  unfold same. now rewrite A1, B1.
Qed.
Lemma bits_det b1 b2 k v1 v2 : length b1 = k -> length b2 = k -> (k < NUM_BITS)%nat ->
  eqp v1 (bits_value b1) -> eqp v2 (bits_value b2) -> eqp v1 v2 -> b1 = b2.
Proof.
  intros L1 L2 HK H1 H2 H. apply bits_value_inj; [congruence|].
  pose proof (bits_value_bound b1) as B1. pose proof (bits_value_bound b2) as B2. rewrite L1 in B1. rewrite L2 in B2.
  pose proof modulus_bits as [M _]. assert (2 ^ Z.of_nat k <= 2 ^ Z.of_nat CAPACITY) by (apply pow2_le; rewrite num_bits_S in HK; lia).
  apply eqp_small; [|lia|lia]. now rewrite <- H1, <- H2.
Qed.

Lemma fits_bits rho (one : rho ONE = 1) xs L :
  (forall p, In p (combine (seq 0 (length xs)) xs) -> eqp (rho (snd p) * (1 - rho (snd p))) 0) ->
  eqp (lc_eval rho (lc_add L (weighted_vars (-1) fone xs)) * lc_eval rho (lc_add (lc_sub (lc_var ONE) L) (weighted_vars 1 fone xs))) 0 ->
  exists b bs, Forall2 (fun x b => eqp (rho x) (Z.b2z b)) xs bs /\ eqp (lc_eval rho L) (bits_value (b :: bs)).
Proof.
  intros Hb H.
  assert (Hbs : exists bs, Forall2 (fun x b => eqp (rho x) (Z.b2z b)) xs bs /\ eqp (value_of 2 (map rho xs)) (bits_value bs)).
  { assert (G : forall x, In x xs -> exists b, eqp (rho x) (Z.b2z b)).
    { intros x Hx. apply In_nth_error in Hx. destruct Hx as [i Hi].
      assert (Hin : In (i, x) (combine (seq 0 (length xs)) xs)) by (apply (nth_error_In _ i); rewrite (combine_seq_nth x _ _ 0%nat Hi); reflexivity).
      specialize (Hb _ Hin). cbn [snd] in Hb. now apply bool_sol, bit_cases in Hb. }
    clear Hb H. induction xs as [|x xs IH].
    - exists []. split; [constructor|reflexivity].
    - destruct IH as (bs & Hl & He); [intros; apply G; now right|].
      destruct (G x (or_introl eq_refl)) as [b Hb].
      exists (b :: bs). split; [constructor; auto|].
      unfold bits_value. cbn [map value_of]. now rewrite Hb, He. }
  destruct Hbs as (bs & Hl & He).
  lcs_in H. rewrite !weighted_vars_eval in H. rewrite fone_1, one, He in H.
  set (L0 := lc_eval rho L) in *. set (V := bits_value bs) in *.
  replace ((L0 + -1 * (2 * 1 * V)) * (1 - L0 + 1 * (2 * 1 * V)))
    with ((L0 - 2 * V) * (1 - (L0 - 2 * V))) in H by ring.
  apply bool_sol, bit_cases in H. destruct H as [b Hbb].
  exists b, bs. split; auto.
  unfold bits_value. cbn [map value_of]. fold (bits_value bs). fold V.
  rewrite <- Hbb. ering.
Qed.
Lemma NUM_BITS_2 : (2 <= NUM_BITS)%nat.
Proof.
  rewrite num_bits_S. pose proof modulus_bits as [_ M]. rewrite num_bits_S in M. pose proof wf_two.
  destruct CAPACITY; [|lia]. change (2 ^ Z.of_nat 1) with 2 in M. lia.
Qed.

Lemma alloc_vars_uwp (g : nat -> name) (h : nat -> res Z) is (Q : list var -> list var -> Prop) :
  (forall xs, length xs = length is -> Q xs xs) ->
  uwp (mapM (fun i => let! (x, _) := alloc (g i) (h i) in Ret x) is) Q.
Proof.
  intros HQ. apply (uwp_mapM _ _ _ (fun _ x l => l = [x])).
  - intros i _. ustep. ustep. intros x v. ustep. reflexivity.
  - intros bs Hbs. assert (Hc : List.concat (map snd bs) = map fst bs).
    { clear HQ. induction Hbs as [|i b is bs Hb _ IH]; [reflexivity|]. cbn [map List.concat]. now rewrite Hb, IH. }
    rewrite Hc. apply HQ. rewrite map_length. now apply Forall2_length in Hbs.
Qed.

Lemma fits_in_bits_uwp n k : (k < NUM_BITS)%nat -> leq (n_lc n) -> uwp (fits_in_bits n k) (fun _ l => Forall same l).
Proof.
  intros HK HL. unfold fits_in_bits. ustep.
  apply alloc_vars_uwp. intros xs Hxs. rewrite seq_length in Hxs. ustep.
  apply (uwp_iterM _ _ _ (fun p l => l = [] /\ eqp (r1 (snd p) * (1 - r1 (snd p))) 0 /\ eqp (r2 (snd p) * (1 - r2 (snd p))) 0)).
  { intros p _. ustep. lcs. rewrite one1, one2. auto. }
  intros vs Hvs. assert (Hv : List.concat vs = []).
  { clear -Hvs. induction Hvs as [|p v ps vs Hp _ IH]; [reflexivity|]. cbn [List.concat]. destruct Hp as [-> _]. exact IH. }
  rewrite Hv. ustep. intros H1 H2. rewrite !app_nil_r.
  assert (HB : forall p, In p (combine (seq 0 (length xs)) xs) ->
     eqp (r1 (snd p) * (1 - r1 (snd p))) 0 /\ eqp (r2 (snd p) * (1 - r2 (snd p))) 0).
  { clear -Hvs. intros p Hp. induction Hvs as [|q v ps vs Hq _ IH]; [contradiction|]. destruct Hp as [<-|Hp]; [tauto|auto]. }
  destruct (fits_bits r1 one1 xs (n_lc n)) as (b1 & bs1 & F1 & E1); [intros; now apply HB|exact H1|].
  destruct (fits_bits r2 one2 xs (n_lc n)) as (b2 & bs2 & F2 & E2); [intros; now apply HB|exact H2|].
  apply (bools_same bs1 bs2); auto.
  assert (Hb : b1 :: bs1 = b2 :: bs2); [|congruence].
  eapply (bits_det _ _ (S (length xs))); [simpl; f_equal; symmetry; eapply Forall2_length; eauto|simpl; f_equal; symmetry; eapply Forall2_length; eauto| |exact E1|exact E2|exact HL].
  pose proof NUM_BITS_2. lia.
Qed.

Lemma bit_alloc_uwp v (Q : bit -> list var -> Prop) :
  (forall x b1 b2, eqp (r1 x) (Z.b2z b1) -> eqp (r2 x) (Z.b2z b2) -> Q (mkBit (lc_var x) v) [x]) -> uwp (bit_alloc v) Q.
Proof.
  intros HQ. unfold bit_alloc. ustep. ustep. intros x o. ustep. ustep. intros H1 H2. ustep.
  apply bool_con in H1; auto. apply bool_con in H2; auto. destruct H1 as [b1 H1], H2 as [b2 H2]. eapply HQ; eauto.
Qed.
Lemma num_decompose_uwp n k : (k < NUM_BITS)%nat -> leq (n_lc n) -> uwp (num_decompose n k) (fun bv l =>
  bv_bits bv = map lc_var l /\ map b_lc (bv_allocs bv) = map lc_var l /\ Forall same l).
Proof.
  intros HK HL. eapply uwp_mono.
  - apply uwp_both; [apply num_decompose_swp; exact one1|apply num_decompose_swp; exact one2|].
    instantiate (1 := fun bv l => map b_lc (bv_allocs bv) = map lc_var l).
    unfold num_decompose. ustep. ustep. intros vs _. ustep.
    apply (uwp_mapM _ _ _ (fun _ b l => exists x, b_lc b = lc_var x /\ l = [x])).
    { intros i _. ustep. apply bit_alloc_uwp. intros x b1 b2 _ _. eexists; split; reflexivity. }
    intros bs Hbs. ustep. ustep. intros _ _. ustep. cbn [bv_allocs app]. rewrite app_nil_r. clear -Hbs.
    induction Hbs as [|i b is bs (x & H1 & H2) _ IH]; [reflexivity|]. cbn [map List.concat]. rewrite map_app, <- IH, H1, H2. reflexivity.
  - cbv beta. intros bv l ((b1 & L1 & (A1 & W1) & V1 & _) & (b2 & L2 & (_ & W2) & V2 & _) & Hl).
    rewrite A1 in *. split; [exact Hl|]. split; [exact Hl|]. rewrite Hl in W1, W2.
    assert (K : forall r bs, wire_bits r (map lc_var l) bs -> Forall2 (fun x b => eqp (r x) (Z.b2z b)) l bs).
    { clear. intros r. induction l as [|x l IH]; intros bs H; inversion H; subst; constructor; auto. unfold wire_bit in H2. now lcs_in H2. }
    apply (bools_same b1 b2); auto. eapply bits_det; eauto.
Qed.

(** ** Products of polynomials *)
Lemma alloc_from_nat_uwp f w n (Q : bignat -> list var -> Prop) :
  (forall b l, limbs b = map lc_var l -> bparams b = params_new w n -> length l = n -> Q b l) -> uwp (alloc_from_nat f w n) Q.
Proof.
  intros HQ. unfold alloc_from_nat. ustep. apply (uwp_mapM _ _ _ (fun _ p l => l = [fst p])).
  - intros i _. ustep. intros x v. reflexivity.
  - intros bs Hbs. assert (Hc : List.concat (map snd bs) = map fst (map fst bs)).
    { clear HQ. induction Hbs as [|i b is bs Hb _ IH]; [reflexivity|]. cbn [map List.concat]. now rewrite Hb, IH. }
    rewrite Hc. destruct (match captured _ with [] => _ | _ => _ end) as [v lv]. ustep. rewrite app_nil_r.
    apply HQ; auto.
    + unfold xs_lcs. cbn [limbs]. now rewrite !map_map.
    + rewrite !map_length. apply Forall2_length in Hbs. now rewrite seq_length in Hbs.
Qed.
Lemma leq_vars l : Forall leq (map lc_var l) <-> Forall same l.
Proof.
  induction l as [|x l IH]; cbn [map]; [split; constructor|]. split; intros H; inversion H; subst; constructor; try tauto; now apply leq_var.
Qed.

Lemma alloc_product_uwp a b : Forall leq (p_coeffs a) -> Forall leq (p_coeffs b) ->
  Z.of_nat (length (p_coeffs a) + length (p_coeffs b) - 1) < modulus ->
  uwp (alloc_product a b) (fun p l => Forall leq (p_coeffs p) /\ Forall same l).
Proof.
  intros HA HB HN. apply leq_wires in HA, HB. eapply uwp_mono.
  - apply uwp_both; [apply (alloc_product_swp r1 Any a b (wires r1 (p_coeffs a)) (wires r1 (p_coeffs b))); auto using ev_wires|
      apply (alloc_product_swp r2 Any a b (wires r1 (p_coeffs a)) (wires r1 (p_coeffs b))); auto|].
    + now rewrite !wires_length.
    + rewrite HA. apply ev_wires.
    + rewrite HB. apply ev_wires.
    + now rewrite !wires_length.
    + instantiate (1 := fun p l => p_coeffs p = map lc_var l). unfold alloc_product. ustep. ustep. intros n _. ustep. ustep. intros vs _. ustep.
      apply (uwp_mapM _ _ _ (fun _ b l => exists x, b = lc_var x /\ l = [x])).
      { intros i _. ustep. ustep. intros x v. ustep. eexists; split; reflexivity. }
      intros bs Hbs. ustep. apply (uwp_iterM _ _ _ (fun _ l => l = [])).
      { intros k _. ustep. reflexivity. }
      intros us Hus. assert (HU : List.concat us = []).
      { clear -Hus. induction Hus as [|? ? ? ? -> _ IH]; auto. }
      rewrite HU. ustep. cbn [p_coeffs app]. rewrite app_nil_r. clear -Hbs.
      induction Hbs as [|i b is bs (x & H1 & H2) _ IH]; [reflexivity|]. cbn [map List.concat]. rewrite map_app, <- IH, H1, H2. reflexivity.
  - cbv beta. intros p l (H1 & H2 & Hl). assert (K : Forall leq (p_coeffs p)) by (eapply leq_ev; eauto).
    split; auto. rewrite Hl in K. now apply leq_vars.
Qed.

(** ** Comparison after carrying *)
Lemma base_unit w : ~ eqp (2 ^ Z.of_nat w) 0.
Proof.
  induction w as [|w IH].
  - exact eqp_1_0.
  - rewrite pow_S. intros H. apply eqp_0_mul in H. destruct H as [H|H]; [|auto].
    pose proof wf_two. apply eqp_small in H; lia.
Qed.
Lemma carry_step_uwp a b n M w cb s i :
  Forall leq (limbs a) -> Forall leq (limbs b) -> (cb < NUM_BITS)%nat -> leq (n_lc (snd s)) ->
  uwp (carry_step a b n M (2 ^ Z.of_nat w) cb s i) (fun s' l => leq (n_lc (snd s')) /\ Forall same l).
Proof.
  intros HA HB HC HS. destruct s as [e c]. cbn [snd] in HS. unfold carry_step. ustep. ustep. unfold num_alloc. ustep. ustep. intros x v. ustep.
  ustep. ustep. intros fm _. ustep. ustep. intros fb Hfb. apply nat_to_f_eqp in Hfb. destruct Hfb as [_ ->]. ustep. ustep. intros fe _.
  ustep. ustep. intros H1 H2.
  assert (Hx : same x).
  { unfold same. cbn [n_lc] in *. repeat (progress lcs_in H1). repeat (progress lcs_in H2). rewrite !lc_eval_const in H1, H2 by auto.
    apply (leq_nth _ i) in HA, HB. unfold leq in HA, HB, HS. rewrite HA, HB, HS in H1. rewrite eqp_fmk in H1, H2.
    apply (eqp_cancel (2 ^ Z.of_nat w)); [apply base_unit|].
    apply (proj1 (eqp_sub_0 _ _)).
    set (K := lc_eval r2 (n_lc c) + lc_eval r2 (nth i (limbs a) lc_zero) - lc_eval r2 (nth i (limbs b) lc_zero) + fm) in *.
    assert (D : eqp ((K - 2 ^ Z.of_nat w * r2 x - fe) - (K - 2 ^ Z.of_nat w * r1 x - fe)) (0 - 0)) by now rewrite H1, H2.
    replace (2 ^ Z.of_nat w * r1 x - 2 ^ Z.of_nat w * r2 x) with ((K - 2 ^ Z.of_nat w * r2 x - fe) - (K - 2 ^ Z.of_nat w * r1 x - fe)) by ring.
    exact D. }
  ustep. destruct (i <? n - 1)%nat.
  - ustep. eapply uwp_mono; [apply fits_in_bits_uwp; auto; cbn [n_lc]; now apply leq_var|]. cbv beta. intros _ l Hl. ustep.
    split; [cbn [snd n_lc]; now apply leq_var|]. fsame.
  - ustep. ustep. intros fx _. ustep. intros _ _. ustep. split; [cbn [snd n_lc]; now apply leq_var|]. fsame.
Qed.
Lemma nil_concat {A} (us : list (list A)) : Forall (fun l => l = []) us -> List.concat us = [].
Proof. induction 1 as [|? ? -> _ IH]; auto. Qed.
Lemma iter_enforce0_uwp {A} (nm : A -> name) (g : A -> LC) ls (Q : unit -> list var -> Prop) :
  Q tt [] -> uwp (iterM (fun i => enforce (nm i) lc_zero lc_zero (g i)) ls) Q.
Proof.
  intros HQ. apply (uwp_iterM _ _ _ (fun _ l => l = [])).
  - intros i _. ustep. reflexivity.
  - intros vs Hvs. rewrite nil_concat; [exact HQ|]. eapply Forall2_snd; [exact Hvs|]. auto.
Qed.
Lemma equal_when_carried_uwp a b : Forall leq (limbs a) -> Forall leq (limbs b) ->
  (carry_bits_f64 (Z.max (max_word (bparams a)) (max_word (bparams b))) (limb_width (bparams a)) < NUM_BITS)%nat ->
  uwp (equal_when_carried a b) (fun _ l => Forall same l).
Proof.
  intros HA HB HC. unfold equal_when_carried. ustep. ustep. intros w' Hw'. unfold width_agreement in Hw'.
  destruct (Nat.eqb_spec (limb_width (bparams a)) (limb_width (bparams b))) as [HW|]; [|discriminate].
  injection Hw' as <-. cbv zeta. rewrite Z.shiftl_mul_pow2, Z.mul_1_l by lia. ustep.
  eapply uwp_mono; [apply (uwp_foldM _ _ _ (fun s => leq (n_lc (snd s))) same); [|apply leq_zero]|].
  - intros s i _ Hs. apply carry_step_uwp; auto.
  - cbv beta. intros s l [_ Hl]. ustep. apply iter_enforce0_uwp. apply iter_enforce0_uwp. fsame.
Qed.

Lemma ev_leq_ev ls vs : Forall leq ls -> ev r1 ls vs -> ev r2 ls vs.
Proof.
  intros H H1. induction H1 as [|l v ls vs H1 _ IH]; [constructor|]. inversion H as [|? ? K1 K2]; subst. unfold leq in K1.
  constructor; [now rewrite <- K1|exact (IH K2)].
Qed.
Lemma group_limbs_leq b g b' : group_limbs b g = Ok b' -> Forall leq (limbs b) -> Forall leq (limbs b').
Proof.
  intros H HL. destruct (group_limbs_inv _ _ _ H) as (_ & _ & K).
  eapply leq_ev; [apply K, ev_wires|]. apply K. apply (ev_leq_ev _ _ HL). apply ev_wires.
Qed.
Lemma no_wrap_bits M w : no_wrap M w -> (carry_bits_f64 M w < NUM_BITS)%nat.
Proof.
  intros [_ H]. pose proof modulus_bits as [_ HM]. pose proof (pow2_pos w) as Hp. pose proof (pow2_pos (carry_width M w)) as Hc.
  destruct (Nat.lt_ge_cases (carry_bits_f64 M w) NUM_BITS) as [|HG]; auto. exfalso.
  assert (2 ^ Z.of_nat NUM_BITS <= 2 ^ Z.of_nat (carry_width M w)) by (apply pow2_le; unfold carry_width; lia). nia.
Qed.
Lemma regroup_uwp a b : Forall leq (limbs a) -> Forall leq (limbs b) ->
  group_no_wrap (Z.max (max_word (bparams a)) (max_word (bparams b))) (limb_width (bparams a)) ->
  uwp (equal_when_carried_regroup a b) (fun _ l => Forall same l).
Proof.
  intros HA HB HN. set (M := Z.max (max_word (bparams a)) (max_word (bparams b))) in *. set (w := limb_width (bparams a)) in *.
  unfold equal_when_carried_regroup. ustep. ustep. intros w' Hw'. unfold width_agreement in Hw'.
  destruct (Nat.eqb_spec (limb_width (bparams a)) (limb_width (bparams b))) as [HW|]; [|discriminate].
  injection Hw' as <-. fold w. fold M. ustep. ustep. intros room Hroom. 
  ustep. ustep. intros g Hg. destruct (Nat.eqb_spec w 0); [discriminate|].
  assert (Hgs : g = group_size M w).
  { unfold usub in Hroom. destruct (Nat.leb_spec (carry_bits_f64 M w) CAPACITY); [|discriminate].
    injection Hroom as <-. injection Hg as <-. reflexivity. }
  clear Hg Hroom. ustep. ustep. intros ga Hga. ustep. ustep. intros gb Hgb.
  destruct (group_limbs_inv _ _ _ Hga) as (Hg1 & Pa & _).
  destruct (group_limbs_inv _ _ _ Hgb) as (_ & Pb & _).
  fold w in Pa. rewrite <- HW in Pb. fold w in Pb.
  assert (HM : Z.max (max_word (bparams ga)) (max_word (bparams gb)) = group_word M w).
  { rewrite Pa, Pb. cbn [max_word]. rewrite ones_at_max by lia. fold M.
    rewrite group_word_ones, ones_at_spec by lia. now rewrite Hgs. }
  ustep. eapply uwp_mono; [apply equal_when_carried_uwp|cbv beta; cbn [app]; auto].
  - eapply group_limbs_leq; eauto.
  - eapply group_limbs_leq; eauto.
  - rewrite HM, Pa. cbn [limb_width]. rewrite Hgs. apply no_wrap_bits. exact HN.
Qed.

(** ** Range checks, products and differences *)
Lemma assert_well_formed_uwp b : (limb_width (bparams b) < NUM_BITS)%nat -> Forall leq (limbs b) ->
  uwp (assert_well_formed b) (fun _ l => Forall same l).
Proof.
  intros HW HL. unfold assert_well_formed. rewrite limb_nums_seq, iterM_map. cbn [fst snd].
  apply (uwp_iterM _ _ _ (fun _ l => Forall same l)).
  - intros i _. ustep. ustep. intros n Hn. ustep. eapply uwp_mono; [apply fits_in_bits_uwp; auto|cbv beta; auto].
    rewrite (limb_num_lc _ _ _ Hn). now apply leq_nth.
  - intros vs Hvs. apply Forall_concat_in. eapply Forall2_snd; [exact Hvs|]. auto.
Qed.
Lemma det_limbs w b : limb_width (bparams b) = w -> range_wires r1 w b -> range_wires r2 w b -> int_of r1 b = int_of r2 b -> Forall leq (limbs b).
Proof.
  intros <- H1 H2 H. apply leq_wires. apply (value_of_inj (2 ^ Z.of_nat (limb_width (bparams b)))); auto using pow2_pos.
  now rewrite !wires_length.
Qed.
Lemma leq_int b : Forall leq (limbs b) -> int_of r1 b = int_of r2 b.
Proof. intros H. unfold int_of. now rewrite (proj1 (leq_wires _) H). Qed.

Lemma verify_mult_uwp a b p : Forall leq (limbs a) -> Forall leq (limbs b) -> Forall leq (limbs p) ->
  Z.of_nat (length (limbs a) + length (limbs b) - 1) < modulus ->
  group_no_wrap (Z.max (mult_word a b) (max_word (bparams p))) (limb_width (bparams a)) ->
  uwp (verify_mult a b p) (fun _ l => Forall same l).
Proof.
  intros HA HB HP HN HG. unfold verify_mult. ustep. ustep. intros w1 Hw1. unfold width_agreement in Hw1.
  destruct (Nat.eqb_spec (limb_width (bparams a)) (limb_width (bparams b))) as [W1|]; [|discriminate].
  ustep. ustep. intros w2 _. change (Z.of_nat _ * _ * _) with (mult_word a b). ustep. ustep.
  eapply uwp_mono; [apply alloc_product_uwp; auto|]. cbv beta. intros pp l [H1 H2]. ustep.
  eapply uwp_mono; [apply regroup_uwp; auto|].
  - rewrite from_poly_bparams. cbn [max_word limb_width]. rewrite <- W1. exact HG.
  - cbv beta. intros _ l' Hl. fsame.
Qed.

Lemma mult_uwp a b :
  let w := limb_width (bparams a) in
  Forall leq (limbs a) -> Forall leq (limbs b) -> bounded r1 a -> bounded r1 b ->
  n_limbs (bparams a) = length (limbs a) -> n_limbs (bparams b) = length (limbs b) ->
  Z.of_nat (length (limbs a) + length (limbs b) - 1) < modulus -> (w < NUM_BITS)%nat ->
  group_no_wrap (Z.max (mult_word a b) (2 ^ Z.of_nat w - 1)) w ->
  uwp (mult a b) (fun p l => Forall leq (limbs p) /\ Forall same l).
Proof.
  intros w HA HB BA BB NA NB HN HW HG. apply bounded_in_word in BA, BB.
  pose proof (mult_swp r1 one1 Any a b _ _ (ev_wires r1 (limbs a)) (ev_wires r1 (limbs b)) BA BB) as K1. cbv zeta in K1.
  pose proof (mult_swp r2 one2 Any a b _ _ (ev_leq_ev _ _ HA (ev_wires r1 (limbs a))) (ev_leq_ev _ _ HB (ev_wires r1 (limbs b))) BA BB) as K2. cbv zeta in K2.
  rewrite !wires_length in K1, K2. specialize (K1 NA NB HN HG). specialize (K2 NA NB HN HG).
  eapply uwp_mono; [apply (uwp_both _ _ _ _ _ (fun p l => Forall leq (limbs p) -> Forall same l) K1 K2)|].
  - unfold mult. ustep. ustep. intros w1 Hw1. unfold width_agreement in Hw1.
    destruct (Nat.eqb_spec (limb_width (bparams a)) (limb_width (bparams b))) as [W1|]; [|discriminate].
    ustep. ustep. apply alloc_from_nat_uwp. intros p0 l Lp Pp _.
    set (p := if _ : bool then _ else _).
    assert (Pl : limbs p = limbs p0) by (unfold p; destruct (_ && _); reflexivity).
    assert (Pw : limb_width (bparams p) = w /\ max_word (bparams p) = 2 ^ Z.of_nat w - 1).
    { assert (H0 : limb_width (bparams p0) = w /\ max_word (bparams p0) = int_with_n_ones w) by (rewrite Pp; unfold w; rewrite W1; auto).
      rewrite int_with_n_ones_spec in H0. unfold p; destruct (_ && _); exact H0. }
    clearbody p. destruct Pw as [Pw Pm].
    ustep. ustep. eapply uwp_mono; [apply (uwp_imp _ _ _ (Forall leq (limbs p))); intros HL; apply assert_well_formed_uwp; [rewrite Pw; exact HW|exact HL]|].
    cbv beta. intros _ l1 H1. ustep. ustep.
    eapply uwp_mono; [apply (uwp_imp _ _ _ (Forall leq (limbs p))); intros HL; apply verify_mult_uwp; auto; rewrite Pm; exact HG|].
    cbv beta. intros _ l2 H2. ustep. intros HL. specialize (H1 HL). specialize (H2 HL). rewrite Pl, Lp in HL. apply leq_vars in HL. fsame.
  - cbv beta. intros p l ((_ & A2 & _ & A4 & A5 & _) & (_ & _ & _ & B4 & B5 & _) & Hl).
    assert (HL : Forall leq (limbs p)) by (eapply det_limbs; eauto; congruence). auto.
Qed.

Lemma leq_in_word b : Forall leq (limbs b) -> in_word b (wires r1 (limbs b)) -> in_word b (wires r2 (limbs b)).
Proof. intros H. now rewrite (proj1 (leq_wires _) H). Qed.

Lemma add_leq a b c : Bignat.add a b = Ok c -> n_limbs (bparams a) = length (limbs a) -> n_limbs (bparams b) = length (limbs b) ->
  Forall leq (limbs a) -> Forall leq (limbs b) -> Forall leq (limbs c).
Proof.
  intros H NA NB HA HB. destruct (add_inv _ _ _ H) as (_ & _ & K); auto.
  eapply leq_ev; [apply K; apply ev_wires|]. apply K; apply ev_leq_ev; auto; apply ev_wires.
Qed.
Lemma sub_checked_uwp n1 n2 a b :
  let w := limb_width (bparams a) in
  Forall leq (limbs a) -> Forall leq (limbs b) -> bounded r1 a -> bounded r1 b ->
  n_limbs (bparams a) = length (limbs a) -> n_limbs (bparams b) = length (limbs b) -> 0 <= max_word (bparams b) ->
  (1 <= w)%nat -> (w < NUM_BITS)%nat -> group_no_wrap (sub_word a b) w ->
  uwp (let! d := ns n1 (Bignat.sub a b) in let! _ := ns n2 (assert_well_formed d) in Ret d)
    (fun d l => Forall leq (limbs d) /\ Forall same l).
Proof.
  intros w HA HB BA BB NA NB H0 HW1 HW HG. apply bounded_in_word in BA, BB.
  pose proof (sub_swp r1 one1 Any a b _ _ (ev_wires r1 (limbs a)) (ev_wires r1 (limbs b)) BA BB) as K1. cbv zeta in K1.
  pose proof (sub_swp r2 one2 Any a b _ _ (ev_leq_ev _ _ HA (ev_wires r1 (limbs a))) (ev_leq_ev _ _ HB (ev_wires r1 (limbs b))) BA BB) as K2. cbv zeta in K2.
  rewrite !wires_length in K1, K2. specialize (K1 NA NB H0 HG). specialize (K2 NA NB H0 HG). fold w in K1, K2.
  ustep. ustep. eapply uwp_mono; [apply (uwp_both _ _ _ _ _ (fun d l => Forall leq (limbs d) -> Forall same l) K1 K2)|].
  - unfold Bignat.sub. ustep. ustep. apply alloc_from_nat_uwp. intros d l Ld Pd LL. ustep. ustep. intros sum Hs. ustep. ustep.
    destruct (add_inv _ _ _ Hs) as (S1 & S2 & S3); [congruence| |].
    { rewrite Pd, Ld, map_length. cbn [params_new n_limbs]. congruence. }
    eapply uwp_mono; [apply (uwp_imp _ _ _ (Forall leq (limbs d))); intros HL; apply regroup_uwp; auto|].
    + eapply add_leq; eauto. rewrite Pd, Ld, map_length. cbn [params_new n_limbs]. congruence.
    + rewrite S2. cbn [add_params max_word]. rewrite Pd, params_word. exact HG.
    + cbv beta. intros _ l' Hl'. ustep. intros HL. specialize (Hl' HL). rewrite Ld in HL. apply leq_vars in HL. fsame.
  - cbv beta. intros d l ((_ & P1 & _ & A) & (_ & _ & _ & B) & Hl).
    assert (Wd : limb_width (bparams d) = w) by (rewrite P1; reflexivity).
    ustep. ustep. eapply uwp_mono; [apply uwp_both;
      [apply assert_well_formed_swp; exact one1|apply assert_well_formed_swp; exact one2|
       apply (uwp_imp _ _ _ (Forall leq (limbs d))); intros HL; apply assert_well_formed_uwp; [rewrite Wd; exact HW|exact HL]]|].
    cbv beta. intros _ l' (R1 & R2 & Hl'). rewrite Wd, width1_pos in R1, R2 by auto. ustep.
    assert (HL : Forall leq (limbs d)).
    { eapply det_limbs; eauto. specialize (A R1). specialize (B R2). lia. }
    split; auto. specialize (Hl HL). specialize (Hl' HL). fsame.
Qed.

(** ** Selection *)
Lemma mux_wires_uwp s w0 w1 wo : leq (b_lc s) -> Forall leq w0 -> Forall leq w1 -> length w1 = length w0 -> length wo = length w0 ->
  uwp (mux_wires s w0 w1 wo) (fun _ l => Forall leq wo /\ l = []).
Proof.
  intros HS H0 H1 L1 L2. unfold mux_wires.
  apply (uwp_iterM _ _ _ (fun p l => leq (snd (snd p)) /\ l = [])).
  - intros (i & (l0, l1) & lo) Hp. ustep. cbn [fst snd]. intros C1 C2. split; [|reflexivity].
    apply in_combine_r in Hp. apply in_combine_l in Hp. pose proof (in_combine_l _ _ _ _ Hp) as I0. pose proof (in_combine_r _ _ _ _ Hp) as I1.
    rewrite Forall_forall in H0, H1. apply H0 in I0. apply H1 in I1. unfold leq in *. repeat (progress lcs_in C1). repeat (progress lcs_in C2).
    rewrite HS, I0, I1 in C1. rewrite C2 in C1. apply (proj1 (eqp_sub_0 _ _)).
    set (x := lc_eval r2 l0) in *. set (u := lc_eval r1 lo) in *. set (v := lc_eval r2 lo) in *.
    replace (u - v) with ((u - x) - (v - x)) by ring. apply (proj2 (eqp_sub_0 _ _)). now symmetry.
  - intros vs Hvs. split.
    + apply Forall_forall. intros lo Hlo. apply (In_nth _ _ lc_zero) in Hlo. destruct Hlo as (i & Hi & <-). rewrite L2 in Hi.
      pose proof (combine3_in w0 w1 wo lc_zero lc_zero lc_zero i Hi L1 L2) as HI. clear -Hvs HI.
      induction Hvs as [|p v ps vs [Hp _] _ IH]; [contradiction|]. destruct HI as [->|HI]; [exact Hp|auto].
    + apply nil_concat. eapply Forall2_snd; [exact Hvs|]. cbv beta. tauto.
Qed.
Lemma leq_padded ls n : Forall leq ls -> Forall leq (ls ++ repeat lc_zero n).
Proof. intros H. apply Forall_app. split; auto. induction n; cbn [repeat]; constructor; auto. apply leq_zero. Qed.
Lemma mux_uwp s i0 i1 : leq (b_lc s) -> Forall leq (limbs i0) -> Forall leq (limbs i1) ->
  n_limbs (bparams i0) = length (limbs i0) -> n_limbs (bparams i1) = length (limbs i1) ->
  uwp (mux s i0 i1) (fun o l => (Forall leq (limbs o) /\ n_limbs (bparams o) = length (limbs o)) /\ Forall same l).
Proof.
  intros HS H0 H1 S0 S1. unfold mux. ustep. ustep. intros j0 J0. ustep. ustep. intros j1 J1.
  destruct (with_n_limbs_shape _ _ _ J0 S0) as (A1 & A2 & A3).
  destruct (with_n_limbs_shape _ _ _ J1 S1) as (B1 & B2 & B3). rewrite S0, S1 in *.
  destruct (_ || _) eqn:Ed; [exact I|].
  unfold gadget_alloc. ustep. ustep. apply alloc_from_nat_uwp. intros o l Lo Po Ll. cbn [n_limbs] in *. rewrite A3 in Ll, Po. cbn [n_limbs] in Ll, Po. ustep.
  eapply uwp_mono; [apply mux_wires_uwp; auto|].
  - rewrite A2. now apply leq_padded.
  - rewrite B2. now apply leq_padded.
  - rewrite A2, B2, !app_length, !repeat_length. lia.
  - rewrite Lo, map_length, A2, app_length, repeat_length, Ll. lia.
  - cbv beta. intros _ l' [HL ->]. ustep. split; [split; [exact HL|]|].
    + rewrite Po, Lo, map_length, Ll. reflexivity.
    + rewrite Lo in HL. apply leq_vars in HL. fsame.
Qed.

End UniqueG.
