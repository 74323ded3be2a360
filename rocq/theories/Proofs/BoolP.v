(** Booleans, allocated numbers and the equality gadgets of src/mp/bignat.rs. *)
From Coq Require Import ZArith Bool List Lia Setoid Morphisms ZifyBool ZifyNat.
From Verif.Model Require Import Base CS Bellpepper Util Poly Bignat.
From Verif.Spec Require Import Spec.
From Verif.Proofs Require Import Field Arith Convert Limbs Wp Lc BitNum PolyP.
Import ListNotations.
Local Open Scope Z_scope.

Section BoolP.
Context {E : Env} {W : Wf E}.

Lemma bit_of_f_bool b : bit_of_f (f_of_bool b) = b.
Proof.
  unfold bit_of_f. rewrite f_of_bool_b2z, fone_1. destruct b; reflexivity.
Qed.

Lemma bool_lc_scale rho b c : lc_eval rho (bool_lc b c) = c * lc_eval rho (bool_lc b 1).
Proof. destruct b as [a|a|[]]; unfold bool_lc, lc_zero; cbn [lc_eval]; ring. Qed.

Section Rho.
Context (rho : assignment) (one : rho ONE = 1).

Definition wire_bool (b : Boolean) (x : bool) : Prop := wire_bit rho (bool_lc b 1) x.
Definition is_bool (b : Boolean) (x : bool) : Prop := bool_val b = Some x /\ wire_bool b x.

Lemma wire_is a x : wire_bool (BIs a) x <-> eqp (rho (ab_var a)) (Z.b2z x).
Proof. unfold wire_bool, wire_bit. cbn [bool_lc lc_eval]. rewrite Z.add_0_r, Z.mul_1_l. reflexivity. Qed.
Lemma wire_not a x : wire_bool (BNot a) x <-> eqp (rho (ab_var a)) (Z.b2z (negb x)).
Proof.
  unfold wire_bool, wire_bit. cbn [bool_lc lc_eval]. rewrite one.
  replace (1 * 1 + (- (1) * rho (ab_var a) + 0)) with (1 - rho (ab_var a)) by ring.
  split; intros H.
  - replace (rho (ab_var a)) with (1 - (1 - rho (ab_var a))) by ring. rewrite H.
    destruct x; reflexivity.
  - rewrite H. destruct x; reflexivity.
Qed.
Lemma wire_const c x : wire_bool (BConst c) x <-> c = x.
Proof.
  unfold wire_bool, wire_bit. destruct c; cbn [bool_lc lc_eval]; rewrite ?one;
    unfold lc_zero; cbn [lc_eval]; split; intros H; subst; try reflexivity.
  - apply b2z_eqp_inj. exact H.
  - apply b2z_eqp_inj. exact H.
Qed.

Lemma bool_not_wire b x : wire_bool b x -> wire_bool (bool_not b) (negb x).
Proof.
  destruct b; cbn [bool_not]; rewrite ?wire_is, ?wire_not, ?wire_const, ?negb_involutive; auto.
  congruence.
Qed.
Lemma bool_not_is b x : is_bool b x -> is_bool (bool_not b) (negb x).
Proof.
  intros [H1 H2]. split; [|now apply bool_not_wire].
  destruct b as [a|a|c]; simpl in *; try congruence.
  - rewrite H1. reflexivity.
  - destruct (ab_val a); simpl in *; [|discriminate]. injection H1 as <-. now rewrite negb_involutive.
Qed.

Lemma andb_mul x y : Z.b2z (x && y) = Z.b2z x * Z.b2z y.
Proof. destruct x, y; reflexivity. Qed.
Lemma negb_sub x : Z.b2z (negb x) = 1 - Z.b2z x.
Proof. destruct x; reflexivity. Qed.

Lemma ab_alloc_swp md v : swp md rho (ab_alloc v) (fun r => ab_val r = v /\
  exists x, wire_bool (BIs r) x /\ (md = Honest -> v = Some x)).
Proof.
  unfold ab_alloc. repeat sstep. intros x o Hm. repeat sstep. intros H.
  apply bool_con in H; auto. destruct H as [b Hb]. cbn [ab_val]. split; auto.
  exists b. rewrite wire_is. split; [exact Hb|].
  intros ->. destruct Hm as (z & Hz & _ & Hy). destruct v as [c|]; [|discriminate].
  simpl in Hz. injection Hz as Hz. f_equal. apply b2z_eqp_inj.
  rewrite <- Hb, Hy, <- Hz, f_of_bool_b2z. reflexivity.
Qed.
Lemma ab_alloc_hwp v : hwp rho (ab_alloc (Some v)) (fun r => is_bool (BIs r) v).
Proof.
  unfold ab_alloc. repeat hstep; [reflexivity|]. intros x Hx. repeat hstep.
  - apply bool_con; auto. exists v. rewrite Hx, f_of_bool_b2z. reflexivity.
  - split; [reflexivity|]. apply wire_is. cbn [ab_var]. rewrite Hx, f_of_bool_b2z. reflexivity.
Qed.
Lemma ab_alloc_awp md v b : (md = Honest -> v = Some b) -> awp md rho (ab_alloc v) [Z.b2z b]
  (fun r => ab_val r = v /\ wire_bool (BIs r) b).
Proof.
  intros Hh. unfold ab_alloc. apply awp_bind_all. astep.
  { intros ->. rewrite (Hh eq_refl). simpl. now rewrite f_of_bool_b2z. }
  intros x o Hx Hv. apply awp_bind_nil. astep.
  - apply bool_con; auto. exists b. rewrite Hx. reflexivity.
  - astep. split; auto. apply wire_is. cbn [ab_var]. rewrite Hx. reflexivity.
Qed.

Lemma bool_and_swp md a b x y : wire_bool a x -> wire_bool b y ->
  swp md rho (bool_and a b) (fun r => wire_bool r (x && y)).
Proof.
  intros Ha Hb.
  destruct a as [a|a|[]], b as [b|b|[]]; cbn [bool_and];
    unfold ab_and, ab_and_not, ab_nor; repeat sstep;
    try (intros z o _; repeat sstep; lcs; rewrite ?one; intros H; apply wire_is; cbn [ab_var];
         rewrite <- H, andb_mul; rewrite ?wire_is, ?wire_not in Ha; rewrite ?wire_is, ?wire_not in Hb; rewrite Ha, Hb, ?negb_sub; ering);
    try (rewrite wire_const in Ha; subst x); try (rewrite wire_const in Hb; subst y);
    rewrite ?andb_true_r, ?andb_false_r; auto; apply (proj2 (wire_const _ _)); reflexivity.
Qed.
Lemma bool_and_hwp a b x y : is_bool a x -> is_bool b y ->
  hwp rho (bool_and a b) (fun r => is_bool r (x && y)).
Proof.
  intros [Va Ha] [Vb Hb].
  assert (Na : forall c, option_map negb (ab_val c) = Some x -> ab_val c = Some (negb x)).
  { intros c Hc. destruct (ab_val c); simpl in Hc; [|discriminate]. injection Hc as <-.
    now rewrite negb_involutive. }
  assert (Nb : forall c, option_map negb (ab_val c) = Some y -> ab_val c = Some (negb y)).
  { intros c Hc. destruct (ab_val c); simpl in Hc; [|discriminate]. injection Hc as <-.
    now rewrite negb_involutive. }
  pose proof Va as Va0. pose proof Vb as Vb0.
  destruct a as [a|a|[]], b as [b|b|[]]; cbn [bool_and]; cbn [bool_val] in Va, Vb;
    try apply Na in Va; try apply Nb in Vb;
    unfold ab_and, ab_and_not, ab_nor; repeat hstep;
    try (rewrite Va, Vb; reflexivity);
    try (intros z Hz; repeat hstep; rewrite ?wire_is, ?wire_not in Ha; rewrite ?wire_is, ?wire_not in Hb;
         [lcs; rewrite Ha, Hb, Hz, f_of_bool_b2z, ?one, ?negb_involutive, andb_mul, ?negb_sub; ering|];
         split; [cbn; rewrite bit_of_f_bool, ?negb_involutive, 1?andb_comm; reflexivity|];
         apply wire_is; cbn [ab_var]; rewrite Hz, f_of_bool_b2z, ?negb_involutive, ?andb_mul; ering);
    try (rewrite wire_const in Ha; subst x); try (rewrite wire_const in Hb; subst y);
    rewrite ?andb_true_r, ?andb_false_r; try (split; auto; fail);
    (split; [reflexivity|apply (proj2 (wire_const _ _)); reflexivity]).
Qed.

End Rho.
End BoolP.
