(** The operations on big naturals that only build linear combinations. *)
From Coq Require Import ZArith Bool List Lia Setoid Morphisms ZifyBool ZifyNat.
From Verif.Model Require Import Base CS Bellpepper Util Poly Bignat.
From Verif.Spec Require Import Spec.
From Verif.Proofs Require Import Field Arith Convert Limbs Wp Lc BitNum PolyP BoolP BignatEq BignatAlloc Group Carry Regroup Mult MultC TopBits TopPoly TopBignat1.
Import ListNotations.
Local Open Scope Z_scope.

Lemma nth_map_seq {A} (f : nat -> A) n i d : (i < n)%nat -> nth i (map f (seq 0 n)) d = f i.
Proof.
  intros H. rewrite (nth_indep _ d (f 0%nat)) by (rewrite map_length, seq_length; auto).
  rewrite map_nth, seq_nth by auto. reflexivity.
Qed.
Lemma rsum_nth P R i : nth i (rsum P R) 0 = nth i P 0 + nth i R 0.
Proof.
  unfold rsum. destruct (Nat.lt_ge_cases i (Nat.max (length P) (length R))).
  - now rewrite nth_map_seq.
  - rewrite !nth_overflow by (rewrite ?map_length, ?seq_length; lia). reflexivity.
Qed.

Section Pure.
Context {E : Env} {W : Wf E}.

Lemma shaped_is rho b : well_shaped b -> is_bn rho Any b (wires rho (limbs b)).
Proof.
  intros [H1 H2]. split; [apply ev_wires|]. split; auto. split; [unfold wires; rewrite map_length; auto|].
  split; [|discriminate]. unfold wires. apply Forall_map, Forall_forall. intros. apply fmk_canon.
Qed.
Lemma wires_nonneg rho ls : Forall (fun v => 0 <= v) (wires rho ls).
Proof. unfold wires. apply Forall_map, Forall_forall. intros l _. apply fmk_canon. Qed.
Lemma bounded_in_word rho b : bounded rho b <-> in_word b (wires rho (limbs b)).
Proof.
  unfold bounded, in_word. pose proof (wires_nonneg rho (limbs b)) as H. rewrite !Forall_forall in *.
  split; intros G x Hx; specialize (H x Hx); specialize (G x Hx); cbv beta in *; try lia.
Qed.
Lemma bignat_at_shaped s b vs : bignat_at s b vs -> well_shaped b.
Proof.
  intros (H1 & H2 & H3 & H4 & H5). pose proof (Forall2_length _ _ _ H2) as HL. split; [congruence|].
  rewrite H1. split; auto. eapply Forall_impl; [|exact H5]. cbv beta; tauto.
Qed.
Lemma ev_carries s (ls : list LC) vs : Forall canon vs -> (forall rho, agree s rho -> ev rho ls vs) ->
  Forall2 (carries s) ls vs.
Proof. intros HC H. apply carries_list. intros rho Ha. apply ev_canon; auto. Qed.
Lemma bounded_canon M vs : M < modulus -> Forall (fun v => 0 <= v <= M) vs -> Forall canon vs.
Proof. intros HM H. eapply Forall_impl; [|exact H]. unfold canon. cbv beta. lia. Qed.
Lemma word_canon b vs : Forall (fun v => 0 <= v <= max_word (bparams b)) vs -> Forall canon vs ->
  Forall (fun v => 0 <= v <= max_word (bparams b) /\ canon v) vs.
Proof. rewrite !Forall_forall. auto. Qed.

(** From wire-level and value-level facts about the result to [bignat_at]. *)
Lemma mk_bignat_at s b vs :
  (forall rho, agree s rho -> rho ONE = 1 -> ev rho (limbs b) vs) -> good s -> limb_values b = Some vs ->
  value b = Some (value_of (2 ^ Z.of_nat (limb_width (bparams b))) vs) ->
  n_limbs (bparams b) = length vs -> in_word b vs -> Forall canon vs -> bignat_at s b vs.
Proof.
  intros H1 G H2 H3 H4 H5 H6. split; auto. split.
  - apply ev_carries; auto. intros rho Ha. apply H1; auto. now apply (proj1 (G rho Ha)).
  - split; auto. split; auto. now apply word_canon.
Qed.
Lemma bignat_at_ev s b vs rho : bignat_at s b vs -> agree s rho -> rho ONE = 1 -> ev rho (limbs b) vs.
Proof. intros H Ha one. apply (bignat_at_is s b vs rho H Ha one). Qed.
Lemma bignat_at_word s b vs : bignat_at s b vs -> in_word b vs.
Proof. intros (_ & _ & _ & _ & H). eapply Forall_impl; [|exact H]. cbv beta; tauto. Qed.
Lemma bignat_at_canon s b vs : bignat_at s b vs -> Forall canon vs.
Proof. intros (_ & _ & _ & _ & H). eapply Forall_impl; [|exact H]. cbv beta; tauto. Qed.

(** ** [add] *)
Lemma opt2_nth {A} (f : A -> A -> A) (xs ys : list A) dx dy d i : (i < Nat.max (length xs) (length ys))%nat ->
  opt2 f (nth_error xs i) (nth_error ys i) = Ok
    (if (i <? length xs)%nat then if (i <? length ys)%nat then f (nth i xs dx) (nth i ys dy) else nth i xs d
     else nth i ys d).
Proof.
  intros H. destruct (Nat.ltb_spec i (length xs)), (Nat.ltb_spec i (length ys)); try lia.
  - rewrite (nth_error_nth' xs dx), (nth_error_nth' ys dy) by auto. reflexivity.
  - rewrite (nth_error_nth' xs d) by auto. rewrite (proj2 (nth_error_None ys i)) by auto. reflexivity.
  - rewrite (nth_error_nth' ys d) by auto. rewrite (proj2 (nth_error_None xs i)) by auto. reflexivity.
Qed.

Definition add_params (a b : bignat) : params :=
  mkParams (Nat.max (min_bits (bparams a)) (min_bits (bparams b)))
    (max_word (bparams a) + max_word (bparams b)) (limb_width (bparams a))
    (Nat.max (n_limbs (bparams a)) (n_limbs (bparams b))).

Lemma add_ok a b : well_shaped a -> well_shaped b -> limb_width (bparams a) = limb_width (bparams b) ->
  exists c, add a b = Ok c /\ bparams c = add_params a b /\ well_shaped c /\
    (forall rho xs ys, ev rho (limbs a) xs -> ev rho (limbs b) ys -> ev rho (limbs c) (rsum xs ys)) /\
    (forall xs ys, limb_values a = Some xs -> limb_values b = Some ys ->
       limb_values c = Some (map fmk (rsum xs ys))) /\
    (forall x y, value a = Some x -> value b = Some y -> value c = Some (x + y)).
Proof.
  intros [A1 A2] [B1 B2] HW. unfold add, width_agreement. rewrite HW, Nat.eqb_refl. cbn [rbind].
  rewrite A1, B1. set (n := Nat.max (length (limbs a)) (length (limbs b))).
  set (g := fun i => if (i <? length (limbs a))%nat then
      if (i <? length (limbs b))%nat then lc_add (nth i (limbs a) lc_zero) (nth i (limbs b) lc_zero)
      else nth i (limbs a) lc_zero else nth i (limbs b) lc_zero).
  rewrite (rmapM_ok _ g).
  2:{ intros i Hi. apply in_seq in Hi. now apply opt2_nth. }
  cbn [rbind].
  assert (HLv : exists l, (match limb_values a, limb_values b with
     | Some xs, Some ys =>
         let? vs := rmapM (fun i => opt2 fadd (nth_error xs i) (nth_error ys i)) (seq 0 n) in
         Ok (Some vs)
     | _, _ => Ok None
     end) = Ok l /\ match l with Some vs => length vs = n /\ Forall canon vs | None => True end /\
     (forall xs ys, limb_values a = Some xs -> limb_values b = Some ys -> l = Some (map fmk (rsum xs ys)))).
  { destruct (limb_values a) as [xs|]; [|exists None; split; auto; split; auto; discriminate].
    destruct (limb_values b) as [ys|]; [|exists None; split; auto; split; auto; discriminate].
    destruct A2 as [LA CA], B2 as [LB CB].
    assert (Hr : rmapM (fun i => opt2 fadd (nth_error xs i) (nth_error ys i)) (seq 0 n) =
       Ok (map fmk (rsum xs ys))).
    { unfold rsum. rewrite map_map, LA, LB. fold n. apply rmapM_ok. intros i Hi. apply in_seq in Hi.
      rewrite (opt2_nth _ _ _ 0 0 0) by (rewrite LA, LB; unfold n in Hi; lia). f_equal.
      assert (Cx : canon (nth i xs 0)) by (apply nth_range; auto using canon_0).
      assert (Cy : canon (nth i ys 0)) by (apply nth_range; auto using canon_0).
      destruct (Nat.ltb_spec i (length xs)), (Nat.ltb_spec i (length ys)).
      - reflexivity.
      - rewrite (nth_overflow ys) by auto. rewrite Z.add_0_r. symmetry. now apply fmk_id.
      - rewrite (nth_overflow xs) by auto. rewrite Z.add_0_l. symmetry. now apply fmk_id.
      - rewrite !nth_overflow by auto. symmetry. apply fmk_id, canon_0. }
    rewrite Hr. cbn [rbind]. eexists. split; [reflexivity|]. split.
    - rewrite map_length, rsum_length, LA, LB. split; auto. apply Forall_map, Forall_forall. intros; apply fmk_canon.
    - intros ? ? H1 H2. injection H1 as <-. injection H2 as <-. reflexivity. }
  destruct HLv as (l & Hl & Hok & Hlv). rewrite Hl. cbn [rbind].
  eexists. split; [reflexivity|]. cbn [bparams limbs limb_values value].
  split; [unfold add_params; rewrite A1, B1, HW; reflexivity|].
  split; [|split; [|split]].
  - split; cbn [bparams n_limbs limbs limb_values]; rewrite map_length, seq_length; auto.
  - intros rho xs ys Ha Hb. pose proof (ev_length _ _ _ Ha) as La. pose proof (ev_length _ _ _ Hb) as Lb.
    apply (nth_Forall2 _ lc_zero 0); [rewrite map_length, seq_length, rsum_length, <- La, <- Lb; reflexivity|].
    rewrite map_length, seq_length. intros i Hi. rewrite rsum_nth.
    rewrite nth_map_seq by auto. unfold g.
    pose proof (ev_nth rho _ _ i Ha) as Ga. pose proof (ev_nth rho _ _ i Hb) as Gb.
    destruct (Nat.ltb_spec i (length (limbs a))), (Nat.ltb_spec i (length (limbs b))).
    + lcs. now rewrite Ga, Gb.
    + rewrite Ga, (nth_overflow ys) by lia. apply eqp_ring. ring.
    + rewrite Gb, (nth_overflow xs) by lia. apply eqp_ring. ring.
    + unfold n in Hi. lia.
  - auto.
  - intros x y -> ->. reflexivity.
Qed.

Lemma is_bn_add rho md a b xs ys : is_bn rho md a xs -> is_bn rho md b ys ->
  limb_width (bparams a) = limb_width (bparams b) -> Forall canon (rsum xs ys) ->
  exists c, add a b = Ok c /\ bparams c = add_params a b /\ is_bn rho md c (rsum xs ys).
Proof.
  intros (A1 & A2 & A3 & A4 & A5) (B1 & B2 & B3 & B4 & B5) HW HC.
  destruct (add_ok a b) as (c & H1 & H2 & H3 & H4 & H5 & H6); auto.
  { split; auto. rewrite A3. symmetry. apply (ev_length _ _ _ A1). }
  { split; auto. rewrite B3. symmetry. apply (ev_length _ _ _ B1). }
  exists c. split; auto. split; auto. split; auto. split; [apply H3|]. split; [|split; auto].
  - rewrite H2, rsum_length. cbn [add_params n_limbs]. now rewrite A3, B3.
  - intros Hm. destruct (A5 Hm) as [A6 A7], (B5 Hm) as [B6 B7]. split.
    + rewrite (H5 _ _ A6 B6), map_fmk_canon; auto.
    + rewrite (H6 _ _ A7 B7), H2, rsum_value. cbn [add_params limb_width]. now rewrite HW.
Qed.

Lemma rsum_word a b xs ys : in_word a xs -> in_word b ys -> 0 <= max_word (bparams a) -> 0 <= max_word (bparams b) ->
  Forall (fun v => 0 <= v <= max_word (bparams a) + max_word (bparams b)) (rsum xs ys).
Proof. intros. now apply rsum_bound. Qed.

End Pure.
