(** Exclusive or, choice and majority of single bits in the gadget. *)
From Coq Require Import ZArith Bool List Lia Setoid Morphisms ZifyBool ZifyNat.
From Verif.Model Require Import Base Sha256 CS Bellpepper Util Poly Bignat ShaGadget.
From Verif.Spec Require Import Spec.
From Verif.Proofs Require Import Field Arith Convert Limbs Wp Lc BitNum PolyP BoolP Ewp.
Import ListNotations.
Local Open Scope Z_scope.

Ltac lcss := repeat progress lcs.

Section ShaBits.
Context {E : Env} {W : Wf E}.

(** ** Which case applies *)
Lemma xor_cases a b :
  (a = BConst false /\ bool_xor a b = Ret b) \/ (b = BConst false /\ bool_xor a b = Ret a) \/
  (a = BConst true /\ bool_xor a b = Ret (bool_not b)) \/ (b = BConst true /\ bool_xor a b = Ret (bool_not a)) \/
  (exists p q, a = BIs p /\ b = BIs q /\ bool_xor a b = let! r := ab_xor p q in Ret (BIs r)) \/
  (exists p q, a = BNot p /\ b = BNot q /\ bool_xor a b = let! r := ab_xor p q in Ret (BIs r)) \/
  (exists p q, a = BIs p /\ b = BNot q /\ bool_xor a b = let! r := ab_xor p q in Ret (BNot r)) \/
  (exists p q, a = BNot p /\ b = BIs q /\ bool_xor a b = let! r := ab_xor q p in Ret (BNot r)).
Proof. destruct a as [a|a|[]], b as [b|b|[]]; eauto 14. Qed.

Lemma ch_cases a b c :
  (exists x y z, a = BConst x /\ b = BConst y /\ c = BConst z /\ bool_ch a b c = Ret (BConst (ch_bit x y z))) \/
  (a = BConst false /\ bool_ch a b c = Ret c) \/
  (b = BConst false /\ bool_ch a b c = bool_and (bool_not a) c) \/
  (c = BConst false /\ bool_ch a b c = bool_and a b) \/
  (c = BConst true /\ bool_ch a b c = let! r := bool_and a (bool_not b) in Ret (bool_not r)) \/
  (b = BConst true /\ bool_ch a b c = let! r := bool_and (bool_not a) (bool_not c) in Ret (bool_not r)) \/
  bool_ch a b c = ch_general a b c.
Proof. destruct a as [a|a|[]], b as [b|b|[]], c as [c|c|[]]; eauto 12. Qed.

Lemma maj_cases a b c :
  (exists x y z, a = BConst x /\ b = BConst y /\ c = BConst z /\ bool_maj a b c = Ret (BConst (maj_bit x y z))) \/
  (a = BConst false /\ bool_maj a b c = bool_and b c) \/
  (b = BConst false /\ bool_maj a b c = bool_and a c) \/
  (c = BConst false /\ bool_maj a b c = bool_and a b) \/
  (c = BConst true /\ bool_maj a b c = let! r := bool_and (bool_not a) (bool_not b) in Ret (bool_not r)) \/
  (b = BConst true /\ bool_maj a b c = let! r := bool_and (bool_not a) (bool_not c) in Ret (bool_not r)) \/
  (a = BConst true /\ bool_maj a b c = let! r := bool_and (bool_not b) (bool_not c) in Ret (bool_not r)) \/
  bool_maj a b c = maj_general a b c.
Proof. destruct a as [a|a|[]], b as [b|b|[]], c as [c|c|[]]; eauto 14. Qed.

(** ** Constants agree with the values recorded for them *)
Definition agrees (b : Boolean) (x : bool) : Prop := match b with BConst c => c = x | _ => True end.

Lemma agrees_not b x : agrees b x -> agrees (bool_not b) (negb x).
Proof. destruct b; simpl; congruence. Qed.
Lemma and_rwp a b x y : agrees a x -> agrees b y -> rwp (bool_and a b) (fun r => agrees r (x && y)).
Proof. destruct a as [a|a|[]], b as [b|b|[]]; simpl; intros <- <- || intros ? <- || intros <- ? || intros; auto using andb_false_r; destruct x; auto. Qed.
Lemma xor_rwp a b x y : agrees a x -> agrees b y -> rwp (bool_xor a b) (fun r => agrees r (xorb x y)).
Proof. destruct a as [a|a|[]], b as [b|b|[]]; simpl; intros <- <- || intros ? <- || intros <- ? || intros; auto. Qed.
Lemma ch_rwp a b c x y z : agrees a x -> agrees b y -> agrees c z -> rwp (bool_ch a b c) (fun r => agrees r (ch_bit x y z)).
Proof.
  intros Ha Hb Hc. destruct (ch_cases a b c) as [(u & v & t & -> & -> & -> & ->)|[[-> ->]|[[-> ->]|[[-> ->]|[[-> ->]|[[-> ->]| ->]]]]]].
  - cbn in *. congruence.
  - cbn in Ha |- *. subst x. now destruct z.
  - eapply rwp_mono; [apply and_rwp; [apply agrees_not; eauto|eauto]|]. intros r Hr. cbn in Hb. subst y. unfold ch_bit. now rewrite andb_false_r, xorb_false_l.
  - eapply rwp_mono; [apply and_rwp; eauto|]. intros r Hr. cbn in Hc. subst z. unfold ch_bit. now rewrite andb_false_r, xorb_false_r.
  - apply rwp_bind. eapply rwp_mono; [apply and_rwp; [eauto|apply agrees_not; eauto]|]. intros r Hr. cbn in Hc |- *. subst z.
    apply agrees_not in Hr. unfold ch_bit. destruct x, y; exact Hr.
  - apply rwp_bind. eapply rwp_mono; [apply and_rwp; apply agrees_not; eauto|]. intros r Hr. cbn in Hb |- *. subst y.
    apply agrees_not in Hr. unfold ch_bit. destruct x, z; exact Hr.
  - cbn. auto.
Qed.
Lemma maj_rwp a b c x y z : agrees a x -> agrees b y -> agrees c z -> rwp (bool_maj a b c) (fun r => agrees r (maj_bit x y z)).
Proof.
  intros Ha Hb Hc. destruct (maj_cases a b c) as [(u & v & t & -> & -> & -> & ->)|[[-> ->]|[[-> ->]|[[-> ->]|[[-> ->]|[[-> ->]|[[-> ->]| ->]]]]]]].
  - cbn in *. congruence.
  - eapply rwp_mono; [apply and_rwp; eauto|]. intros r Hr. cbn in Ha. subst x. destruct y, z; exact Hr.
  - eapply rwp_mono; [apply and_rwp; eauto|]. intros r Hr. cbn in Hb. subst y. destruct x, z; exact Hr.
  - eapply rwp_mono; [apply and_rwp; eauto|]. intros r Hr. cbn in Hc. subst z. destruct x, y; exact Hr.
  - apply rwp_bind. eapply rwp_mono; [apply and_rwp; apply agrees_not; eauto|]. intros r Hr. cbn in Hc |- *. subst z.
    apply agrees_not in Hr. destruct x, y; exact Hr.
  - apply rwp_bind. eapply rwp_mono; [apply and_rwp; apply agrees_not; eauto|]. intros r Hr. cbn in Hb |- *. subst y.
    apply agrees_not in Hr. destruct x, z; exact Hr.
  - apply rwp_bind. eapply rwp_mono; [apply and_rwp; apply agrees_not; eauto|]. intros r Hr. cbn in Ha |- *. subst x.
    apply agrees_not in Hr. destruct y, z; exact Hr.
  - unfold maj_general. apply rwp_bind. cbn [rwp alloc]. intros ? ?. apply rwp_bind, rwp_ns. eapply rwp_mono; [apply (and_rwp b c y z); auto|].
    cbn; auto.
Qed.

Lemma xorb_mul x y : Z.b2z (xorb x y) = Z.b2z x + Z.b2z y - 2 * Z.b2z x * Z.b2z y.
Proof. destruct x, y; reflexivity. Qed.
Lemma ch_mul x y z : Z.b2z (ch_bit x y z) = (Z.b2z y - Z.b2z z) * Z.b2z x + Z.b2z z.
Proof. destruct x, y, z; reflexivity. Qed.
Lemma maj_mul x y z : Z.b2z (maj_bit x y z) =
  Z.b2z (y && z) - (Z.b2z (y && z) + Z.b2z (y && z) - Z.b2z y - Z.b2z z) * Z.b2z x.
Proof. destruct x, y, z; reflexivity. Qed.

(** ** What satisfied constraints force *)
Section Rho.
Context (rho : assignment) (one : rho ONE = 1).
Notation wire := (wire_bool rho).

Lemma ab_xor_swp a b x y : eqp (rho (ab_var a)) (Z.b2z x) -> eqp (rho (ab_var b)) (Z.b2z y) ->
  swp Any rho (ab_xor a b) (fun r => eqp (rho (ab_var r)) (Z.b2z (xorb x y))).
Proof.
  intros Ha Hb. unfold ab_xor. repeat sstep. intros z o _. repeat sstep. lcss. intros H. cbn [swp ab_var].
  rewrite Ha, Hb in H. rewrite xorb_mul.
  replace (rho z) with (Z.b2z x + Z.b2z y - (Z.b2z x + Z.b2z y - rho z)) by ring. rewrite <- H. ering.
Qed.
Lemma xor_swp a b x y : wire a x -> wire b y -> swp Any rho (bool_xor a b) (fun r => wire r (xorb x y)).
Proof.
  intros Ha Hb. destruct (xor_cases a b) as [[-> ->]|[[-> ->]|[[-> ->]|[[-> ->]|[(p & q & -> & -> & ->)|[(p & q & -> & -> & ->)|[(p & q & -> & -> & ->)|(p & q & -> & -> & ->)]]]]]]].
  - apply wire_const in Ha; auto. subst x. cbn [swp]. now destruct y.
  - apply wire_const in Hb; auto. subst y. cbn. now rewrite xorb_false_r.
  - apply wire_const in Ha; auto. subst x. cbn [swp]. now apply bool_not_wire.
  - apply wire_const in Hb; auto. subst y. cbn [swp]. rewrite xorb_true_r. now apply bool_not_wire.
  - rewrite wire_is in Ha, Hb. apply swp_bind. eapply swp_mono; [apply ab_xor_swp; eauto|]. intros r Hr. cbn [swp]. now apply wire_is.
  - apply wire_not in Ha; auto. apply wire_not in Hb; auto. apply swp_bind. eapply swp_mono; [apply ab_xor_swp; eauto|]. intros r Hr. cbn [swp]. apply wire_is.
    now destruct x, y.
  - rewrite wire_is in Ha. apply wire_not in Hb; auto. apply swp_bind. eapply swp_mono; [apply ab_xor_swp; eauto|]. intros r Hr. cbn [swp]. apply wire_not; auto.
    now destruct x, y.
  - apply wire_not in Ha; auto. rewrite wire_is in Hb. apply swp_bind. eapply swp_mono; [apply ab_xor_swp; eauto|]. intros r Hr. cbn [swp]. apply wire_not; auto.
    now destruct x, y.
Qed.

Lemma ch_general_swp a b c x y z : wire a x -> wire b y -> wire c z ->
  swp Any rho (ch_general a b c) (fun r => wire r (ch_bit x y z)).
Proof.
  intros Ha Hb Hc. unfold ch_general. repeat sstep. intros v o _. repeat sstep. lcss. intros H. cbn [swp]. apply wire_is. cbn [ab_var].
  unfold wire_bool, wire_bit in Ha, Hb, Hc. rewrite Ha, Hb, Hc in H. rewrite ch_mul.
  replace (rho v) with (rho v - Z.b2z z + Z.b2z z) by ring. rewrite <- H. ering.
Qed.
Lemma ch_swp a b c x y z : wire a x -> wire b y -> wire c z ->
  swp Any rho (bool_ch a b c) (fun r => wire r (ch_bit x y z)).
Proof.
  intros Ha Hb Hc. destruct (ch_cases a b c) as [(u & v & t & -> & -> & -> & ->)|[[-> ->]|[[-> ->]|[[-> ->]|[[-> ->]|[[-> ->]| ->]]]]]].
  - apply wire_const in Ha, Hb, Hc; auto. subst. cbn [swp]. now apply wire_const.
  - apply wire_const in Ha; auto. subst x. cbn [swp]. now destruct z.
  - apply wire_const in Hb; auto. eapply swp_mono; [apply (bool_and_swp rho one); [apply bool_not_wire; eauto|eauto]|]. intros r Hr. subst y. now destruct x, z.
  - apply wire_const in Hc; auto. eapply swp_mono; [apply (bool_and_swp rho one); eauto|]. intros r Hr. subst z. now destruct x, y.
  - apply wire_const in Hc; auto. apply swp_bind. eapply swp_mono; [apply (bool_and_swp rho one); [eauto|apply bool_not_wire; eauto]|]. intros r Hr. subst z. cbn [swp].
    apply bool_not_wire in Hr; auto. now destruct x, y.
  - apply wire_const in Hb; auto. apply swp_bind. eapply swp_mono; [apply (bool_and_swp rho one); apply bool_not_wire; eauto|]. intros r Hr. subst y. cbn [swp].
    apply bool_not_wire in Hr; auto. now destruct x, z.
  - now apply ch_general_swp.
Qed.

Lemma maj_general_swp a b c x y z : wire a x -> wire b y -> wire c z ->
  swp Any rho (maj_general a b c) (fun r => wire r (maj_bit x y z)).
Proof.
  intros Ha Hb Hc. unfold maj_general. repeat sstep. intros v o _. repeat sstep.
  eapply swp_mono; [apply (bool_and_swp rho one); eauto|]. intros bc Hbc. repeat sstep.
  lcss. intros H. cbn [swp]. apply wire_is. cbn [ab_var].
  unfold wire_bool, wire_bit in Ha, Hb, Hc, Hbc. rewrite Ha, Hb, Hc, Hbc in H. rewrite maj_mul.
  replace (rho v) with (Z.b2z (y && z) - (Z.b2z (y && z) - rho v)) by ring. rewrite <- H. ering.
Qed.
Lemma maj_swp a b c x y z : wire a x -> wire b y -> wire c z ->
  swp Any rho (bool_maj a b c) (fun r => wire r (maj_bit x y z)).
Proof.
  intros Ha Hb Hc. destruct (maj_cases a b c) as [(u & v & t & -> & -> & -> & ->)|[[-> ->]|[[-> ->]|[[-> ->]|[[-> ->]|[[-> ->]|[[-> ->]| ->]]]]]]].
  - apply wire_const in Ha, Hb, Hc; auto. subst. cbn [swp]. now apply wire_const.
  - apply wire_const in Ha; auto. eapply swp_mono; [apply (bool_and_swp rho one); eauto|]. intros r Hr. subst x. now destruct y, z.
  - apply wire_const in Hb; auto. eapply swp_mono; [apply (bool_and_swp rho one); eauto|]. intros r Hr. subst y. now destruct x, z.
  - apply wire_const in Hc; auto. eapply swp_mono; [apply (bool_and_swp rho one); eauto|]. intros r Hr. subst z. now destruct x, y.
  - apply wire_const in Hc; auto. apply swp_bind. eapply swp_mono; [apply (bool_and_swp rho one); apply bool_not_wire; eauto|]. intros r Hr. subst z. cbn [swp].
    apply bool_not_wire in Hr; auto. now destruct x, y.
  - apply wire_const in Hb; auto. apply swp_bind. eapply swp_mono; [apply (bool_and_swp rho one); apply bool_not_wire; eauto|]. intros r Hr. subst y. cbn [swp].
    apply bool_not_wire in Hr; auto. now destruct x, z.
  - apply wire_const in Ha; auto. apply swp_bind. eapply swp_mono; [apply (bool_and_swp rho one); apply bool_not_wire; eauto|]. intros r Hr. subst x. cbn [swp].
    apply bool_not_wire in Hr; auto. now destruct y, z.
  - now apply maj_general_swp.
Qed.
End Rho.

(** ** What a prover achieves *)
Section Known.
Context (md : mode).
Definition ones (R : known) : Prop := forall rho, R rho -> rho ONE = 1.
Definition eb (R : known) (b : Boolean) (x : bool) : Prop :=
  (forall rho, R rho -> wire_bool rho b x) /\ (md = Honest -> bool_val b = Some x).
Lemma ones_sub R R' : sub R' R -> ones R -> ones R'.
Proof. intros H1 H2 rho H. auto. Qed.
Lemma eb_sub R R' b x : sub R' R -> eb R b x -> eb R' b x.
Proof. intros H1 [H2 H3]. split; auto. Qed.
Lemma eb_not R b x : ones R -> eb R b x -> eb R (bool_not b) (negb x).
Proof.
  intros Ho [H1 H2]. split; [intros rho Hr; apply bool_not_wire; auto|].
  intros Hh. specialize (H2 Hh). destruct b as [a|a|c]; simpl in *; try congruence.
  - now rewrite H2.
  - destruct (ab_val a); simpl in *; [|discriminate]. injection H2 as <-. now rewrite negb_involutive.
Qed.
(** A constant carries the value it is said to carry, as far as anybody knows. *)
Lemma eb_const R c x : ones R -> eb R (BConst c) x -> forall rho, R rho -> c = x.
Proof. intros Ho [H _] rho Hr. apply (wire_const rho (Ho _ Hr)). auto. Qed.
Lemma eb_const_honest R c x : eb R (BConst c) x -> md = Honest -> c = x.
Proof. intros [_ H] Hh. specialize (H Hh). simpl in H. congruence. Qed.
Lemma eb_intro_const R c x : ones R -> (forall rho, R rho -> c = x) -> (md = Honest -> c = x) -> eb R (BConst c) x.
Proof.
  intros Ho H1 H2. split; [intros rho Hr; apply wire_const; eauto|]. intros Hh. simpl. f_equal; auto.
Qed.
Lemma eb_eq R b x y : eb R b x -> (forall rho, R rho -> x = y) -> (md = Honest -> x = y) -> eb R b y.
Proof.
  intros [H1 H2] H3 H4. split; [intros rho Hr; rewrite <- (H3 _ Hr); auto|]. intros Hh. rewrite <- (H4 Hh). auto.
Qed.

Lemma bit_of_b2z t : bit_of_f (Z.b2z t) = t.
Proof. rewrite <- f_of_bool_b2z. apply bit_of_f_bool. Qed.

(** Recorded value of an allocated bit that is used positively or negatively. *)
Lemma val_not a x : bool_val (BNot a) = Some x -> ab_val a = Some (negb x).
Proof. simpl. destruct (ab_val a); simpl; [|discriminate]. intros H. injection H as <-. now rewrite negb_involutive. Qed.

Lemma prod_ewp R nm nm' w A B t : ones R -> (md = Honest -> w = Ok (f_of_bool t)) ->
  (forall rho, R rho -> eqp (lc_eval rho A * lc_eval rho B) (Z.b2z t)) ->
  ewp md R (let! r := (let! (x, v) := alloc nm w in let! _ := enforce nm' A B (lc_var x) in
                       Ret (mkAB x (option_map bit_of_f v))) in Ret (BIs r)) (fun R' r => eb R' r t).
Proof.
  intros Ho Hw Hp. apply ewp_bind, ewp_bind. cbn [ewp alloc]. exists (Z.b2z t). split.
  { intros Hm. now rewrite (Hw Hm), f_of_bool_b2z. }
  intros z o Hv. cbn [bind enforce ewp]. split.
  - intros rho [Hr Hz]. apply csat_R1. rewrite lc_eval_var, Hz. auto.
  - split; [intros rho [Hr Hz]; apply wire_is; cbn [ab_var]; rewrite Hz; reflexivity|].
    intros ->. simpl in Hv. subst o. cbn. now rewrite bit_of_b2z.
Qed.

Lemma and_ewp R a b x y : ones R -> eb R a x -> eb R b y ->
  ewp md R (bool_and a b) (fun R' r => eb R' r (x && y)).
Proof.
  intros Ho Ha Hb. pose proof Ha as [Wa Va]. pose proof Hb as [Wb Vb].
  assert (DA : forall c r v, a = BConst c -> eb R r v -> v = c && y -> eb R r (x && y)).
  { intros c r v -> Hr ->. eapply eb_eq; [exact Hr| |]; intros; f_equal; [eapply eb_const; eauto|eapply eb_const_honest; eauto]. }
  assert (DB : forall c r v, b = BConst c -> eb R r v -> v = x && c -> eb R r (x && y)).
  { intros c r v -> Hr ->. eapply eb_eq; [exact Hr| |]; intros; f_equal; [eapply eb_const; eauto|eapply eb_const_honest; eauto]. }
  assert (CF : eb R (BConst false) false) by (apply eb_intro_const; auto).
  assert (P : forall p q u v, (forall rho, R rho -> eqp (rho (ab_var p)) (Z.b2z u)) -> (forall rho, R rho -> eqp (rho (ab_var q)) (Z.b2z v)) ->
     (md = Honest -> ab_val p = Some u /\ ab_val q = Some v) ->
     ewp md R (let! r := ab_and p q in Ret (BIs r)) (fun R' r => eb R' r (u && v)) /\
     ewp md R (let! r := ab_and_not p q in Ret (BIs r)) (fun R' r => eb R' r (u && negb v)) /\
     ewp md R (let! r := ab_nor p q in Ret (BIs r)) (fun R' r => eb R' r (negb u && negb v))).
  { intros p q u v Hp Hq Hh. split; [|split]; apply prod_ewp; auto;
      try (intros Hm; destruct (Hh Hm) as [-> ->]; reflexivity);
      intros rho Hr; lcss; rewrite ?(Ho _ Hr), (Hp _ Hr), (Hq _ Hr), andb_mul, ?negb_sub; ering. }
  destruct a as [a|a|[]], b as [b|b|[]]; cbn [bool_and]; cbn [ewp];
    try (apply (DA _ _ _ eq_refl CF); reflexivity); try (apply (DB _ _ _ eq_refl CF); now rewrite andb_false_r);
    try (apply (DA _ _ _ eq_refl Hb); reflexivity); try (apply (DB _ _ _ eq_refl Ha); now rewrite andb_true_r).
  - apply (P a b x y); auto; intros rho Hr; now apply wire_is; auto.
  - eapply ewp_mono; [apply (P a b x (negb y)); auto|].
    + intros rho Hr. apply wire_is; auto.
    + intros rho Hr. apply wire_not; auto.
    + intros Hm. split; [now apply Va|apply val_not; auto].
    + intros R' r _ Hr. now rewrite negb_involutive in Hr.
  - eapply ewp_mono; [apply (P b a y (negb x)); auto|].
    + intros rho Hr. apply wire_is; auto.
    + intros rho Hr. apply wire_not; auto.
    + intros Hm. split; [now apply Vb|apply val_not; auto].
    + intros R' r _ Hr. rewrite negb_involutive in Hr. now rewrite andb_comm.
  - eapply ewp_mono; [apply (P a b (negb x) (negb y)); auto|].
    + intros rho Hr. apply wire_not; auto.
    + intros rho Hr. apply wire_not; auto.
    + intros Hm. split; apply val_not; auto.
    + intros R' r _ Hr. now rewrite !negb_involutive in Hr.
Qed.

(** A bit set equal to a known combination of others. *)
Lemma xor_ewp R a b x y : ones R -> eb R a x -> eb R b y ->
  ewp md R (bool_xor a b) (fun R' r => eb R' r (xorb x y)).
Proof.
  intros Ho Ha Hb. pose proof Ha as [Wa Va]. pose proof Hb as [Wb Vb].
  assert (X : forall p q u v (f : allocated_bit -> Boolean), (forall rho, R rho -> eqp (rho (ab_var p)) (Z.b2z u)) -> (forall rho, R rho -> eqp (rho (ab_var q)) (Z.b2z v)) ->
     (md = Honest -> ab_val p = Some u /\ ab_val q = Some v) ->
     (forall R' r, sub R' R -> ones R' -> eb R' (BIs r) (xorb u v) -> eb R' (f r) (xorb x y)) ->
     ewp md R (let! r := ab_xor p q in Ret (f r)) (fun R' r => eb R' r (xorb x y))).
  { intros p q u v f Hp Hq Hh Hf. unfold ab_xor. apply ewp_bind, ewp_bind. cbn [ewp alloc].
    exists (Z.b2z (xorb u v)). split.
    { intros Hm. destruct (Hh Hm) as [-> ->]. cbn [grab rbind]. now rewrite f_of_bool_b2z. }
    intros z o Hv. apply ewp_bind. cbn [ewp enforce]. split.
    - intros rho [Hr Hz]. apply csat_R1. lcss. rewrite (Hp _ Hr), (Hq _ Hr), Hz, xorb_mul. ering.
    - cbn [ewp]. apply Hf; [apply sub_fixed|eapply ones_sub; [apply sub_fixed|auto]|]. split.
      + intros rho [Hr Hz]. apply wire_is. cbn [ab_var]. rewrite Hz. reflexivity.
      + intros ->. simpl in Hv. subst o. cbn. now rewrite bit_of_b2z. }
  destruct (xor_cases a b) as [[-> ->]|[[-> ->]|[[-> ->]|[[-> ->]|[(p & q & -> & -> & ->)|[(p & q & -> & -> & ->)|[(p & q & -> & -> & ->)|(p & q & -> & -> & ->)]]]]]]]; cbn [ewp].
  - eapply eb_eq; [exact Hb| |]; intros; [rewrite <- (eb_const _ _ _ Ho Ha rho H)|rewrite <- (eb_const_honest _ _ _ Ha H)]; now destruct y.
  - eapply eb_eq; [exact Ha| |]; intros; [rewrite <- (eb_const _ _ _ Ho Hb rho H)|rewrite <- (eb_const_honest _ _ _ Hb H)]; now destruct x.
  - eapply eb_eq; [apply eb_not; [auto|exact Hb]| |]; intros; [rewrite <- (eb_const _ _ _ Ho Ha rho H)|rewrite <- (eb_const_honest _ _ _ Ha H)]; now destruct y.
  - eapply eb_eq; [apply eb_not; [auto|exact Ha]| |]; intros; [rewrite <- (eb_const _ _ _ Ho Hb rho H)|rewrite <- (eb_const_honest _ _ _ Hb H)]; now destruct x.
  - apply (X p q x y BIs); auto; intros rho Hr; now apply wire_is; auto.
  - apply (X p q (negb x) (negb y) BIs); auto; try (intros rho Hr; apply wire_not; auto; fail).
    + intros Hm; split; apply val_not; auto.
    + intros R' r _ _ Hr. now destruct x, y.
  - apply (X p q x (negb y) BNot); auto; try (intros rho Hr; first [apply wire_is; auto; fail|apply wire_not; auto; fail]).
    + intros Hm; split; [now apply Va|apply val_not; auto].
    + intros R' r _ Ho' Hr. apply (eb_not _ (BIs r)) in Hr; auto. now destruct x, y.
  - apply (X q p y (negb x) BNot); auto; try (intros rho Hr; first [apply wire_is; auto; fail|apply wire_not; auto; fail]).
    + intros Hm; split; [now apply Vb|apply val_not; auto].
    + intros R' r _ Ho' Hr. apply (eb_not _ (BIs r)) in Hr; auto. now destruct x, y.
Qed.

Lemma val3_honest R f a b c x y z : eb R a x -> eb R b y -> eb R c z -> md = Honest -> val3 f a b c = Some (f x y z).
Proof. intros [_ Ha] [_ Hb] [_ Hc] Hm. unfold val3. now rewrite (Ha Hm), (Hb Hm), (Hc Hm). Qed.

Lemma ch_general_ewp R a b c x y z : ones R -> eb R a x -> eb R b y -> eb R c z ->
  ewp md R (ch_general a b c) (fun R' r => eb R' r (ch_bit x y z)).
Proof.
  intros Ho Ha Hb Hc. pose proof (val3_honest R ch_bit a b c x y z Ha Hb Hc) as Hv. unfold ch_general.
  apply ewp_bind. cbn [ewp alloc]. exists (Z.b2z (ch_bit x y z)). split.
  { intros Hm. rewrite (Hv Hm). cbn [grab rbind]. now rewrite f_of_bool_b2z. }
  intros u o _. cbn [bind enforce ewp]. split.
  - intros rho [Hr Hz]. apply csat_R1. lcss. destruct Ha as [Ha _], Hb as [Hb _], Hc as [Hc _].
    specialize (Ha _ Hr). specialize (Hb _ Hr). specialize (Hc _ Hr). unfold wire_bool, wire_bit in Ha, Hb, Hc.
    rewrite Ha, Hb, Hc, Hz, ch_mul. ering.
  - split; [intros rho [Hr Hz]; apply wire_is; cbn [ab_var]; rewrite Hz; reflexivity|exact Hv].
Qed.
Lemma ch_ewp R a b c x y z : ones R -> eb R a x -> eb R b y -> eb R c z ->
  ewp md R (bool_ch a b c) (fun R' r => eb R' r (ch_bit x y z)).
Proof.
  intros Ho Ha Hb Hc.
  assert (CA : forall t R', a = BConst t -> sub R' R -> forall r v, eb R' r v -> v = ch_bit t y z -> eb R' r (ch_bit x y z)).
  { intros t R' -> Hs r v Hr ->. eapply eb_eq; [exact Hr| |]; intros; f_equal; [eapply eb_const; eauto|eapply eb_const_honest; eauto]. }
  assert (CB : forall t R', b = BConst t -> sub R' R -> forall r v, eb R' r v -> v = ch_bit x t z -> eb R' r (ch_bit x y z)).
  { intros t R' -> Hs r v Hr ->. eapply eb_eq; [exact Hr| |]; intros; f_equal; [eapply eb_const; eauto|eapply eb_const_honest; eauto]. }
  assert (CC : forall t R', c = BConst t -> sub R' R -> forall r v, eb R' r v -> v = ch_bit x y t -> eb R' r (ch_bit x y z)).
  { intros t R' -> Hs r v Hr ->. eapply eb_eq; [exact Hr| |]; intros; f_equal; [eapply eb_const; eauto|eapply eb_const_honest; eauto]. }
  destruct (ch_cases a b c) as [(u & v & t & -> & -> & -> & ->)|[[-> ->]|[[-> ->]|[[-> ->]|[[-> ->]|[[-> ->]| ->]]]]]]; cbn [ewp].
  - apply eb_intro_const; auto; intros; f_equal; try (eapply eb_const; eauto; fail); eapply eb_const_honest; eauto.
  - eapply (CA false R eq_refl (sub_refl R)); [exact Hc|]. now destruct y, z.
  - eapply ewp_mono; [apply and_ewp; [auto|apply eb_not; eauto|eauto]|]. intros R' r Hs Hr.
    eapply (CB false R' eq_refl Hs); [exact Hr|]. now destruct x, z.
  - eapply ewp_mono; [apply and_ewp; eauto|]. intros R' r Hs Hr.
    eapply (CC false R' eq_refl Hs); [exact Hr|]. now destruct x, y.
  - apply ewp_bind. eapply ewp_mono; [apply and_ewp; [auto|eauto|apply eb_not; eauto]|]. intros R' r Hs Hr. cbn [ewp].
    eapply (CC true R' eq_refl Hs); [apply eb_not; [eapply ones_sub; eauto|exact Hr]|]. now destruct x, y.
  - apply ewp_bind. eapply ewp_mono; [apply and_ewp; [auto|apply eb_not; eauto|apply eb_not; eauto]|]. intros R' r Hs Hr. cbn [ewp].
    eapply (CB true R' eq_refl Hs); [apply eb_not; [eapply ones_sub; eauto|exact Hr]|]. now destruct x, z.
  - now apply ch_general_ewp.
Qed.

Lemma maj_general_ewp R a b c x y z : ones R -> eb R a x -> eb R b y -> eb R c z ->
  ewp md R (maj_general a b c) (fun R' r => eb R' r (maj_bit x y z)).
Proof.
  intros Ho Ha Hb Hc. pose proof (val3_honest R maj_bit a b c x y z Ha Hb Hc) as Hv. unfold maj_general.
  apply ewp_bind. cbn [ewp alloc]. exists (Z.b2z (maj_bit x y z)). split.
  { intros Hm. rewrite (Hv Hm). cbn [grab rbind]. now rewrite f_of_bool_b2z. }
  intros u o _. apply ewp_bind, ewp_ns.
  eapply ewp_mono; [apply (and_ewp _ b c y z); [eapply ones_sub; [apply sub_fixed|auto]|eapply eb_sub; [apply sub_fixed|auto]|eapply eb_sub; [apply sub_fixed|auto]]|].
  intros R' bc Hs Hbc. cbn [bind enforce ewp]. split.
  - intros rho Hr'. destruct (Hs _ Hr') as [Hr Hz]. apply csat_R1. lcss. destruct Ha as [Ha _], Hb as [Hb _], Hc as [Hc _], Hbc as [Hbc _].
    specialize (Ha _ Hr). specialize (Hb _ Hr). specialize (Hc _ Hr). specialize (Hbc _ Hr'). unfold wire_bool, wire_bit in Ha, Hb, Hc, Hbc.
    rewrite Ha, Hb, Hc, Hbc, Hz, maj_mul. ering.
  - split; [intros rho Hr'; destruct (Hs _ Hr') as [Hr Hz]; apply wire_is; cbn [ab_var]; rewrite Hz; reflexivity|exact Hv].
Qed.
Lemma maj_ewp R a b c x y z : ones R -> eb R a x -> eb R b y -> eb R c z ->
  ewp md R (bool_maj a b c) (fun R' r => eb R' r (maj_bit x y z)).
Proof.
  intros Ho Ha Hb Hc.
  assert (CA : forall t R', a = BConst t -> sub R' R -> forall r v, eb R' r v -> v = maj_bit t y z -> eb R' r (maj_bit x y z)).
  { intros t R' -> Hs r v Hr ->. eapply eb_eq; [exact Hr| |]; intros; f_equal; [eapply eb_const; eauto|eapply eb_const_honest; eauto]. }
  assert (CB : forall t R', b = BConst t -> sub R' R -> forall r v, eb R' r v -> v = maj_bit x t z -> eb R' r (maj_bit x y z)).
  { intros t R' -> Hs r v Hr ->. eapply eb_eq; [exact Hr| |]; intros; f_equal; [eapply eb_const; eauto|eapply eb_const_honest; eauto]. }
  assert (CC : forall t R', c = BConst t -> sub R' R -> forall r v, eb R' r v -> v = maj_bit x y t -> eb R' r (maj_bit x y z)).
  { intros t R' -> Hs r v Hr ->. eapply eb_eq; [exact Hr| |]; intros; f_equal; [eapply eb_const; eauto|eapply eb_const_honest; eauto]. }
  destruct (maj_cases a b c) as [(u & v & t & -> & -> & -> & ->)|[[-> ->]|[[-> ->]|[[-> ->]|[[-> ->]|[[-> ->]|[[-> ->]| ->]]]]]]]; cbn [ewp].
  - apply eb_intro_const; auto; intros; f_equal; try (eapply eb_const; eauto; fail); eapply eb_const_honest; eauto.
  - eapply ewp_mono; [apply and_ewp; eauto|]. intros R' r Hs Hr. eapply (CA false R' eq_refl Hs); [exact Hr|]. now destruct y, z.
  - eapply ewp_mono; [apply and_ewp; eauto|]. intros R' r Hs Hr. eapply (CB false R' eq_refl Hs); [exact Hr|]. now destruct x, z.
  - eapply ewp_mono; [apply and_ewp; eauto|]. intros R' r Hs Hr. eapply (CC false R' eq_refl Hs); [exact Hr|]. now destruct x, y.
  - apply ewp_bind. eapply ewp_mono; [apply and_ewp; [auto|apply eb_not; eauto|apply eb_not; eauto]|]. intros R' r Hs Hr. cbn [ewp].
    eapply (CC true R' eq_refl Hs); [apply eb_not; [eapply ones_sub; eauto|exact Hr]|]. now destruct x, y.
  - apply ewp_bind. eapply ewp_mono; [apply and_ewp; [auto|apply eb_not; eauto|apply eb_not; eauto]|]. intros R' r Hs Hr. cbn [ewp].
    eapply (CB true R' eq_refl Hs); [apply eb_not; [eapply ones_sub; eauto|exact Hr]|]. now destruct x, z.
  - apply ewp_bind. eapply ewp_mono; [apply and_ewp; [auto|apply eb_not; eauto|apply eb_not; eauto]|]. intros R' r Hs Hr. cbn [ewp].
    eapply (CA true R' eq_refl Hs); [apply eb_not; [eapply ones_sub; eauto|exact Hr]|]. now destruct y, z.
  - now apply maj_general_ewp.
Qed.

(** Allocating a bit. *)
Lemma ab_alloc_ewp R v t : ones R -> (md = Honest -> v = Some t) ->
  ewp md R (ab_alloc v) (fun R' r => ab_val r = v /\ eb R' (BIs r) t).
Proof.
  intros Ho Hh. unfold ab_alloc. apply ewp_bind. cbn [ewp alloc]. exists (Z.b2z t). split.
  { intros Hm. rewrite (Hh Hm). cbn [grab rbind]. now rewrite f_of_bool_b2z. }
  intros u o _. cbn [bind enforce ewp]. split.
  - intros rho [Hr Hz]. apply csat_R1. apply bool_con; auto. exists t. now rewrite Hz.
  - split; auto. split; [intros rho [Hr Hz]; apply wire_is; cbn [ab_var]; rewrite Hz; reflexivity|exact Hh].
Qed.
End Known.
End ShaBits.
