(** Final forms of the polynomial lemmas. *)
From Coq Require Import ZArith Bool List Lia Setoid Morphisms ZifyBool ZifyNat.
From Verif.Model Require Import Base CS Bellpepper Util Poly.
From Verif.Spec Require Import Spec.
From Verif.Proofs Require Import Field Arith Convert Wp Lc BitNum PolyP TopBits.
Import ListNotations.
Local Open Scope Z_scope.

Section Top.
Context {E : Env} {W : Wf E}.

Lemma carries_ev s ls vs rho : Forall2 (carries s) ls vs -> agree s rho -> rho ONE = 1 -> ev rho ls vs.
Proof. intros H Ha one. induction H; constructor; auto. eapply carries_eqp; eauto. Qed.
Lemma poly_at_is s p vs rho : poly_at s p vs -> agree s rho -> rho ONE = 1 -> is_poly rho p vs.
Proof. intros (H1 & H2 & H3) Ha one. split; auto. split; auto. eapply carries_ev; eauto. Qed.
Lemma is_poly_at s p vs : (forall rho, agree s rho -> is_poly rho p vs) -> poly_at s p vs.
Proof.
  intros H. destruct (H _ (agree_asg s)) as (H1 & H2 & _). split; auto. split; auto.
  apply carries_list. intros rho Ha. destruct (H rho Ha) as (_ & _ & H3). now apply ev_canon.
Qed.

Lemma top_product_sound wit a b s p s' rho :
  run wit (alloc_product a b) s = (Ok p, s') -> sat rho s' ->
  Z.of_nat (length (p_coeffs a) + length (p_coeffs b) - 1) < modulus ->
  wires rho (p_coeffs p) =
  map (fun k => conv (wires rho (p_coeffs a)) (wires rho (p_coeffs b)) k mod modulus)
      (seq 0 (length (p_coeffs a) + length (p_coeffs b) - 1)).
Proof.
  intros Hr Hs Hn.
  assert (La : length (wires rho (p_coeffs a)) = length (p_coeffs a)) by apply map_length.
  assert (Lb : length (wires rho (p_coeffs b)) = length (p_coeffs b)) by apply map_length.
  pose proof (swp_run_any _ _ _ _ _ _ _ Hr Hs (alloc_product_swp rho Any a b _ _
     (ev_wires rho _) (ev_wires rho _) ltac:(rewrite La, Lb; exact Hn))) as H.
  cbv beta in H. rewrite La, Lb in H. apply ev_canon.
  - eapply ev_eqp; [exact H|]. clear. induction (seq 0 _); simpl; constructor; auto.
    symmetry. apply eqp_fmk.
  - apply Forall_map, Forall_forall. intros; apply fmk_canon.
Qed.

Lemma top_product_complete a b A B s : good s -> poly_at s a A -> poly_at s b B ->
  A <> [] -> B <> [] ->
  exists p s', run true (alloc_product a b) s = (Ok p, s') /\ good s' /\
    poly_at s' p (map (fun k => conv A B k mod modulus) (seq 0 (length A + length B - 1))).
Proof.
  intros G Ha Hb NA NB.
  assert (LA : (1 <= length A)%nat) by (destruct A; simpl; [congruence|lia]).
  assert (LB : (1 <= length B)%nat) by (destruct B; simpl; [congruence|lia]).
  destruct (hwp_run _ s _ G (fun rho Hag one => alloc_product_hwp rho a b A B
     (poly_at_is _ _ _ _ Ha Hag one) (poly_at_is _ _ _ _ Hb Hag one) LA LB))
    as (p & s' & Hr & Hg & _ & HQ).
  exists p, s'. split; auto. split; auto. apply is_poly_at. exact HQ.
Qed.

Lemma top_product_empty wit a b s : p_coeffs a = [] -> p_coeffs b = [] ->
  run wit (alloc_product a b) s = (Panic, s).
Proof. intros Ha Hb. unfold alloc_product. rewrite Ha, Hb. reflexivity. Qed.

Lemma top_evaluate p vs x : p_vals p = Some vs ->
  evaluate_at p x = Some (value_of x vs mod modulus).
Proof.
  intros H. unfold evaluate_at. rewrite H. cbn [option_map]. f_equal.
  apply canon_eqp; [apply eval_from_canon, canon_0|apply fmk_canon|].
  rewrite eval_from_eqp. fold (fmk (value_of x vs)). feq. unfold fzero. ering.
Qed.

Lemma value_of_add B xs ys n : (length xs <= n)%nat -> (length ys <= n)%nat ->
  value_of B (map (fun i => nth i xs 0 + nth i ys 0) (seq 0 n)) = value_of B xs + value_of B ys.
Proof.
  intros Hx Hy. rewrite value_of_sum_nth, !value_of_sum.
  assert (P : forall l m, (length l <= m)%nat -> sum_n (length l) (fun i => nth i l 0 * B ^ Z.of_nat i) =
      sum_n m (fun i => nth i l 0 * B ^ Z.of_nat i)).
  { intros l m Hm. replace m with (length l + (m - length l))%nat by lia. rewrite sum_n_app.
    rewrite (sum_n_ext (m - length l) _ (fun _ => 0)), sum_n_zero; [ring|].
    intros i _. rewrite nth_overflow by lia. ring. }
  rewrite (P xs n Hx), (P ys n Hy), sum_n_add. apply sum_n_ext. intros; ring.
Qed.

Lemma top_sum_evaluate p q A B x : p_vals p = Some A -> p_vals q = Some B ->
  length A = length (p_coeffs p) -> length B = length (p_coeffs q) ->
  evaluate_at (poly_sum p q) x = Some ((value_of x A + value_of x B) mod modulus) /\
  (forall rho, value_of x (wires rho (p_coeffs (poly_sum p q))) mod modulus =
     (value_of x (wires rho (p_coeffs p)) + value_of x (wires rho (p_coeffs q))) mod modulus).
Proof.
  intros HA HB LA LB. split.
  - rewrite (top_evaluate _ (map (fun i => fadd (fadd fzero (nth i A 0)) (nth i B 0)) (seq 0 (Nat.max (length A) (length B))))).
    + f_equal. apply (proj1 (eqp_mod _ _)).
      rewrite <- (value_of_add x A B (Nat.max (length A) (length B))) by lia.
      apply value_of_eqp. induction (seq 0 _); simpl; constructor; auto. feq. unfold fzero. ering.
    + unfold poly_sum. cbn [p_vals]. now rewrite HA, HB, LA, LB.
  - intros rho. apply (proj1 (eqp_mod _ _)). pose proof (poly_sum_ev rho p q _ _ (ev_wires rho _) (ev_wires rho _)) as H.
    rewrite <- (value_of_add x _ _ (Nat.max (length (wires rho (p_coeffs p))) (length (wires rho (p_coeffs q))))) by lia.
    apply value_of_eqp. apply ev_map in H.
    pose proof (ev_wires rho (p_coeffs (poly_sum p q))) as H2. apply ev_map in H2.
    revert H H2. generalize (map (lc_eval rho) (p_coeffs (poly_sum p q))). clear. intros l H H2.
    revert H. generalize (map (fun i => nth i (wires rho (p_coeffs p)) 0 + nth i (wires rho (p_coeffs q)) 0)
     (seq 0 (Nat.max (length (wires rho (p_coeffs p))) (length (wires rho (p_coeffs q)))))).
    induction H2; intros l2 F; inversion F; subst; constructor; auto. now rewrite <- H.
Qed.

Lemma top_product_evaluate a b A B s p s' x : good s -> poly_at s a A -> poly_at s b B ->
  A <> [] -> B <> [] -> run true (alloc_product a b) s = (Ok p, s') ->
  evaluate_at p x = Some ((value_of x A * value_of x B) mod modulus).
Proof.
  intros G Ha Hb NA NB Hr.
  destruct (top_product_complete a b A B s G Ha Hb NA NB) as (p' & s'' & Hr' & _ & Hp & _).
  rewrite Hr in Hr'. injection Hr' as <- <-. rewrite (top_evaluate _ _ _ Hp). f_equal.
  rewrite <- (value_of_conv x A B (length A + length B - 1)) by lia.
  apply (proj1 (eqp_mod _ _)). apply value_of_eqp. clear.
  induction (seq 0 _); simpl; constructor; auto. apply eqp_fmk.
Qed.

End Top.
