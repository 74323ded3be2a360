(** The allocated product when at most one factor is empty (C12, C13, C83). *)
From Coq Require Import ZArith Bool String List Lia Setoid Morphisms ZifyBool ZifyNat.
From Verif.Model Require Import Base CS TestCS Bellpepper Util Poly Bignat RepoTests.
From Verif.Spec Require Import Spec SpecNames.
From Verif.Proofs Require Import Field Arith Convert Limbs Wp Lc BitNum PolyP BoolP BignatEq BignatAlloc Owp TopBits NamesP NamesG TopPure TopPoly DecP TestsP.
Import ListNotations.
Local Open Scope string_scope.
Local Open Scope Z_scope.
Local Open Scope list_scope.
Notation length := List.length.

Section All.
Context {E : Env} {W : Wf E}.

Lemma conv_values_any (xs ys : list Z) : (1 <= length xs + length ys)%nat ->
  conv_values (length xs + length ys - 1) xs ys =
  Ok (map (fun i => fmk (conv xs ys i)) (seq 0 (length xs + length ys - 1))).
Proof.
  intros L. apply conv_values_ok; [lia|]. destruct xs; [left; reflexivity|right; cbn [List.length]; lia].
Qed.

Lemma alloc_product_any rho (a b : polynomial) A B : is_poly rho a A -> is_poly rho b B ->
  (1 <= length A + length B)%nat ->
  hwp rho (alloc_product a b) (fun p =>
    is_poly rho p (map (fun i => fmk (conv A B i)) (seq 0 (length A + length B - 1)))).
Proof.
  intros (Va & Ca & HA) (Vb & Cb & HB) L. unfold alloc_product.
  do 2 hstep. { unfold usub. rewrite (ev_length _ _ _ HA), (ev_length _ _ _ HB).
    destruct (Nat.leb_spec 1 (length A + length B)); [reflexivity|lia]. }
  do 2 hstep. { rewrite Va, Vb, conv_values_any by lia. reflexivity. }
  set (n := (length A + length B - 1)%nat).
  hstep. apply (hwp_mapM _ _ (fun i l => eqp (lc_eval rho l) (fmk (conv A B i)))).
  { intros i Hi. apply in_seq in Hi. do 2 hstep.
    - cbn [grab rbind]. unfold idx. rewrite nth_error_map, nth_error_nth' with (d := 0%nat) by (rewrite seq_length; lia).
      rewrite seq_nth by lia. reflexivity.
    - intros x Hx. hstep. lcs. rewrite Hx. reflexivity. }
  intros cs Hcs. assert (Hev : ev rho cs (map (fun i => fmk (conv A B i)) (seq 0 n))).
  { clear -Hcs. induction Hcs; simpl; constructor; auto. }
  hstep. apply hwp_iterM.
  - intros k _. hstep; auto. apply (product_con rho A B); auto.
  - hstep. split; [reflexivity|]. split; [|exact Hev].
    apply Forall_map, Forall_forall. intros; apply fmk_canon.
Qed.

Lemma one_nonempty (A B : list Z) : A <> [] \/ B <> [] -> (1 <= length A + length B)%nat.
Proof. destruct A, B; cbn [List.length]; intros [H|H]; try congruence; lia. Qed.

Lemma top_product_all a b A B s : good s -> poly_at s a A -> poly_at s b B ->
  A <> [] \/ B <> [] ->
  exists p s', run true (alloc_product a b) s = (Ok p, s') /\ good s' /\
    poly_at s' p (map (fun k => conv A B k mod modulus) (seq 0 (length A + length B - 1))).
Proof.
  intros G Ha Hb N. apply one_nonempty in N.
  destruct (hwp_run _ s _ G (fun rho Hag one => alloc_product_any rho a b A B
     (poly_at_is _ _ _ _ Ha Hag one) (poly_at_is _ _ _ _ Hb Hag one) N))
    as (p & s' & Hr & Hg & _ & HQ).
  exists p, s'. split; auto. split; auto. apply is_poly_at. exact HQ.
Qed.

Lemma top_product_evaluate_all a b A B s p s' x : good s -> poly_at s a A -> poly_at s b B ->
  A <> [] \/ B <> [] -> run true (alloc_product a b) s = (Ok p, s') ->
  evaluate_at p x = Some ((value_of x A * value_of x B) mod modulus).
Proof.
  intros G Ha Hb N Hr.
  destruct (top_product_all a b A B s G Ha Hb N) as (p' & s'' & Hr' & _ & Hp & _).
  rewrite Hr in Hr'. injection Hr' as <- <-. rewrite (top_evaluate _ _ _ Hp). f_equal.
  apply one_nonempty in N.
  rewrite <- (value_of_conv x A B (length A + length B - 1)) by lia.
  apply (proj1 (eqp_mod _ _)). apply value_of_eqp. clear.
  induction (seq 0 _); simpl; constructor; auto. apply eqp_fmk.
Qed.

Lemma top_poly_verdict_all a b : a <> [] \/ b <> [] -> Forall canon a -> Forall canon b ->
  verdict (polynomial_multiplier a b) = Ok true.
Proof.
  intros N Ca Cb. apply one_nonempty in N. apply (dec_verdict _ True); [apply tidy_well_named, n_poly| |tauto].
  intros rho one. unfold polynomial_multiplier.
  eapply dec_step; [apply alloc_coeffs_hwp|]. intros ca Ea. eapply dec_step; [apply alloc_coeffs_hwp|]. intros cb Eb.
  apply (dec_step _ _ _ _ (fun _ => True)); [|intros _ _; now apply dec_ret]. apply hwp_ns. eapply hwp_mono.
  - apply (alloc_product_any rho (mkPoly ca (Some a)) (mkPoly cb (Some b)) a b); [| |exact N];
      (split; [reflexivity|]; split; [assumption|assumption]).
  - auto.
Qed.
End All.
