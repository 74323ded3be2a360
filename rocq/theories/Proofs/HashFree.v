(** The target comparison is not enforced by the circuit. *)
From Coq Require Import ZArith Bool String List Lia Setoid Morphisms.
From Verif.Model Require Import Base CS Bellpepper Util Poly Bignat Ints Median Difficulty Fields.
From Verif.Spec Require Import Spec.
From Verif.Proofs Require Import Field Wp Lc Arith BoolP BignatEq MedianP Shp TopBignat1 TopGadget TopMedian TopDifficulty Ewp ShaBits RealHashP PrimeFields DifficultyEx.
Import ListNotations.
Local Open Scope string_scope.
Local Open Scope Z_scope.
Local Open Scope list_scope.

Section Free.
Context {E : Env} {W : Wf E}.

(** One gadget of a run, given what it can be made to return; everything known before remains true. *)
Lemma free_step {A B} wit (m : prog A) (f : A -> prog B) s rho0 ys (Q : assignment -> A -> Prop) b s' : good_for rho0 s ->
  (forall rho, same_on s rho rho0 -> rho ONE = 1 -> awp (md_of wit) rho m ys (Q rho)) ->
  run wit (bind m f) s = (Ok b, s') ->
  exists rho1 a s1, run wit m s = (Ok a, s1) /\ run wit (f a) s1 = (Ok b, s') /\ good_for rho1 s1 /\
    (forall r, same_on s1 r rho1 -> same_on s r rho0) /\ (forall r, same_on s1 r rho1 -> Q r a).
Proof.
  intros G Hm Hr. apply run_split in Hr. destruct Hr as (a & s1 & R1 & R2).
  destruct (awp_run wit m s rho0 ys Q a s1 G Hm R1) as (rho1 & H1 & H2 & H3).
  exists rho1, a, s1. split; auto. split; auto. split; auto. split; auto.
  intros r Hr. eapply same_on_trans; [eapply run_same_on; eauto|exact H1].
Qed.
Lemma run_ret {A} wit (m : prog A) s : run wit (bind m (fun a => Ret a)) s = run wit m s.
Proof. rewrite run_bind. destruct (run wit m s) as [[]]; reflexivity. Qed.
Lemma and_step {B} wit a b x y nm (f : Boolean -> prog B) s rho0 (r : B) s' : good_for rho0 s ->
  (forall rho, same_on s rho rho0 -> wire_bool rho a x /\ wire_bool rho b y) ->
  run wit (bind (ns nm (bool_and a b)) f) s = (Ok r, s') ->
  exists rho1 c s1, run wit (f c) s1 = (Ok r, s') /\ good_for rho1 s1 /\
    (forall r, same_on s1 r rho1 -> same_on s r rho0) /\ (forall r, same_on s1 r rho1 -> wire_bool r c (x && y)).
Proof.
  intros G Hw Hr. apply run_split in Hr. destruct Hr as (c & s1 & R1 & R2).
  destruct (ewp_run wit (ns nm (bool_and a b)) s rho0 (fun rho => same_on s rho rho0) (fun R' c => eb (md_of wit) R' c (x && y)) c s1 G)
    as (rho1 & R' & H1 & H2 & H3 & H4 & _); auto.
  { apply ewp_ns, and_ewp.
    - intros rho Hs. apply (G rho Hs).
    - split; [intros rho Hs; apply (Hw rho Hs)|]. intros H. destruct (md_any wit H).
    - split; [intros rho Hs; apply (Hw rho Hs)|]. intros H. destruct (md_any wit H). }
  exists rho1, c, s1. split; auto. split; auto. split; auto.
  intros q Hq. eapply same_on_trans; [eapply run_same_on; eauto|exact H1].
Qed.

(** Hash and target keep the values given to the call, the answer is free. *)
Lemma top_hash_free hu hl tu tl x s r s' : good s -> run true (verify_current_hash hu hl tu tl) s = (Ok r, s') ->
  exists rho, same_on s rho (asg s) /\ sat rho s' /\ feval rho (bool_lc r 1) = Z.b2z x /\
    map (fun k => rho (VAux (List.length (st_aux s) + k)%nat)) [0; 1; 2; 3]%nat = map (fun v => v mod modulus) [hu; hl; tu; tl].
Proof.
  intros G Hr. apply good_good_for in G. unfold verify_current_hash in Hr.
  assert (HA : forall (B : Type) nm v (f : allocated_num -> prog B) s rho0 b s', good_for rho0 s ->
     run true (bind (an_u nm (Ok (from_u128 v))) f) s = (Ok b, s') ->
     exists rho1 a s1, run true (f a) s1 = (Ok b, s') /\ good_for rho1 s1 /\ (forall r, same_on s1 r rho1 -> same_on s r rho0) /\
       List.length (st_aux s1) = S (List.length (st_aux s)) /\
       (forall r, same_on s1 r rho1 -> r (VAux (List.length (st_aux s))) = v mod modulus /\ r (an_var a) = v mod modulus)).
  { clear. intros B nm v f s rho0 b s' G Hr.
    destruct (free_step true (an_u nm (Ok (from_u128 v))) f s rho0 [v mod modulus] (fun rho a => rho (an_var a) = v mod modulus) b s' G) as (rho1 & a & s1 & R1 & R2 & G1 & S1 & Q1); auto.
    { intros rho _ _. unfold an_u. do 2 astep. apply an_alloc_awp; [intros; reflexivity|]. intros y w Hy _. exact Hy. }
    exists rho1, a, s1. split; auto. split; auto. split; auto.
    cbn in R1. injection R1 as <- <-. cbn [pop_ns push_var push_ns st_aux st_in].
    split; [rewrite app_length; cbn [List.length]; lia|]. intros q Hq. split; apply (Q1 q Hq). }
  apply HA with (rho0 := asg s) in Hr; auto. destruct Hr as (q1 & h_u & s1 & Hr & G1 & S1 & L1 & A1).
  apply HA with (rho0 := q1) in Hr; auto. destruct Hr as (q2 & h_l & s2 & Hr & G2 & S2 & L2 & A2).
  apply HA with (rho0 := q2) in Hr; auto. destruct Hr as (q3 & t_u & s3 & Hr & G3 & S3 & L3 & A3).
  apply HA with (rho0 := q3) in Hr; auto. destruct Hr as (q4 & t_l & s4 & Hr & G4 & S4 & L4 & A4).
  clear HA.
  apply free_step with (rho0 := q4) (ys := cmp_aux x) (Q := fun rho c => wire_bool rho c x) in Hr; auto.
  2:{ intros rho _ one. do 2 astep. apply less_than_awp; auto using md_any. }
  destruct Hr as (q5 & lt1 & s5 & _ & Hr & G5 & S5 & A5).
  apply free_step with (rho0 := q5) (ys := eq_aux (hu mod modulus) (tu mod modulus))
    (Q := fun rho c => wire_bool rho c (hu mod modulus =? tu mod modulus)) in Hr; auto.
  2:{ intros rho Hs one. do 2 astep.
      eapply awp_mono; [apply (equals_awp rho one _ _ _ (hu mod modulus) (tu mod modulus)); auto using md_any, fmk_canon|cbv beta; tauto].
      - rewrite (proj2 (A1 rho ltac:(auto))). reflexivity.
      - rewrite (proj2 (A3 rho ltac:(auto))). reflexivity.
      - apply (fmk_canon hu).
      - apply (fmk_canon tu). }
  destruct Hr as (q6 & eq1 & s6 & _ & Hr & G6 & S6 & A6).
  apply free_step with (rho0 := q6) (ys := cmp_aux x) (Q := fun rho c => wire_bool rho c x) in Hr; auto.
  2:{ intros rho _ one. do 2 astep. apply less_than_awp; auto using md_any. }
  destruct Hr as (q7 & lt2 & s7 & _ & Hr & G7 & S7 & A7).
  apply run_split in Hr. destruct Hr as (c8 & s8 & R8 & Hr). apply run_unwrap in R8.
  rewrite <- (run_ret true (ns _ _)) in R8.
  apply and_step with (rho0 := q7) (x := hu mod modulus =? tu mod modulus) (y := x) in R8; auto.
  destruct R8 as (q8 & c8' & s8' & R8 & G8 & S8 & A8). cbn [run] in R8. injection R8 as -> ->.
  apply run_ns_inv in Hr. destruct Hr as (s9 & Hr & ->). unfold bool_or in Hr.
  apply and_step with (rho0 := q8) (x := negb x) (y := negb ((hu mod modulus =? tu mod modulus) && x)) in Hr.
  - destruct Hr as (q9 & c9 & s9' & Hr & G9 & S9 & A9). cbn [run] in Hr. injection Hr as <- <-.
    exists q9.
    assert (K8 : same_on s8 q9 q8) by (apply S9, same_on_refl).
    assert (K7 : same_on s7 q9 q7) by auto. assert (K6 : same_on s6 q9 q6) by auto. assert (K5 : same_on s5 q9 q5) by auto.
    assert (K4 : same_on s4 q9 q4) by auto. assert (K3 : same_on s3 q9 q3) by auto. assert (K2 : same_on s2 q9 q2) by auto.
    assert (K1 : same_on s1 q9 q1) by auto.
    split; [auto|]. split; [apply (G9 q9), same_on_refl|]. split.
    + apply wire_bool_feval. assert (HX : x = negb (negb x && negb ((hu mod modulus =? tu mod modulus) && x))) by (destruct x; cbn; rewrite ?andb_false_r; reflexivity).
      rewrite HX. apply bool_not_wire; [apply (G9 q9), same_on_refl|]. apply A9, same_on_refl.
    + cbn [map]. repeat apply f_equal2; auto.
      * rewrite Nat.add_0_r. apply (A1 q9 K1).
      * replace (List.length (st_aux s) + 1)%nat with (List.length (st_aux s1)) by lia. apply (A2 q9 K2).
      * replace (List.length (st_aux s) + 2)%nat with (List.length (st_aux s2)) by lia. apply (A3 q9 K3).
      * replace (List.length (st_aux s) + 3)%nat with (List.length (st_aux s3)) by lia. apply (A4 q9 K4).
  - exact G8.
  - intros rho Hs. assert (one : rho ONE = 1) by (apply (G8 rho Hs)).
    split; apply bool_not_wire; auto.
Qed.

End Free.

Lemma top_hash_total {E : Env} {W : Wf E} hu hl tu tl s :
  good s -> 0 <= hu < 2 ^ 128 -> 0 <= hl < 2 ^ 128 -> 0 <= tu < 2 ^ 128 -> 0 <= tl < 2 ^ 128 -> 2 ^ 130 < modulus ->
  exists r s' v, run true (verify_current_hash hu hl tu tl) s = (Ok r, s') /\ good s' /\ boolean_at s' r v /\
    (v = true <-> hu < tu <= hu + 2 ^ 127 \/ (hu = tu /\ hl < tl <= hl + 2 ^ 127)).
Proof.
  intros G R1 R2 R3 R4 HP. destruct (top_hash_exact hu hl tu tl s G R1 R2 R3 R4 HP) as (r & s' & H1 & H2 & H3).
  exists r, s', (lt_near hu tu || ((hu =? tu) && lt_near hl tl)). split; auto. split; auto. split; auto.
  unfold lt_near. rewrite orb_true_iff, !andb_true_iff, !Z.ltb_lt, !Z.leb_le, Z.eqb_eq. lia.
Qed.

(** Hash 5 is not below target 4, and yet. *)
Lemma C54_free_witness : let E := pallas_env true in
  exists r s' rho, run true (verify_current_hash 0 5 0 4) st_init = (Ok r, s') /\ boolean_at s' r false /\ sat rho s' /\
    feval rho (bool_lc r 1) = 1 /\ map (fun k => rho (VAux k)) [0; 1; 2; 3]%nat = [0; 5; 0; 4].
Proof.
  intros E. pose proof (wf_pallas true) as W. fold E in W.
  destruct (@top_hash_near E W 0 5 0 4 st_init) as (r & s' & H1 & H2 & H3); try lia; try apply good_init; try reflexivity.
  destruct (@top_hash_free E W 0 5 0 4 true st_init r s' good_init H1) as (rho & _ & K2 & K3 & K4).
  exists r, s', rho. exact (conj H1 (conj H3 (conj K2 (conj K3 K4)))).
Qed.
