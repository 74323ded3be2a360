(** The subtraction accepts every pair of operands, and so the minimum accepts either of them (C67, C38). *)
From Coq Require Import ZArith Bool List Lia ZifyBool ZifyNat Setoid Morphisms.
From Verif.Model Require Import Base CS Bellpepper Util Poly Bignat Gadget.
From Verif.Spec Require Import Spec.
From Verif.Proofs Require Import Field Arith Convert Limbs Wp Lc BitNum PolyP BoolP BignatEq BignatAlloc Group Carry Regroup Mult MultC TopBits TopPoly TopBignat1 PureOps TopPure Owp MinBits MuxP SubP TopBignat2.
Import ListNotations.
Local Open Scope Z_scope.

Section Free.
Context {E : Env} {W : Wf E}.

(** The wires of the difference: limb by limb, in the field. *)
Definition field_diff (A B : list Z) : list Z := map (fun i => (nth i A 0 - nth i B 0) mod modulus) (seq 0 (length A)).

Lemma field_diff_canon A B : Forall canon (field_diff A B).
Proof. apply Forall_map, Forall_forall. intros i _. exact (fmk_canon _). Qed.
Lemma field_diff_length A B : length (field_diff A B) = length A.
Proof. unfold field_diff. now rewrite map_length, seq_length. Qed.

Section Rho.
Context (rho : assignment) (one : rho ONE = 1).

Lemma ev_field_diff ls A B : (length B <= length A)%nat -> ev rho ls (rsum B (field_diff A B)) -> ev rho ls A.
Proof.
  intros HL H. eapply ev_eqp; [exact H|]. apply (nth_Forall2 _ 0 0).
  - rewrite rsum_length, field_diff_length. lia.
  - rewrite rsum_length, field_diff_length. intros i Hi. rewrite rsum_nth. unfold field_diff.
    rewrite nth_map_seq by lia. fold (fmk (nth i A 0 - nth i B 0)). rewrite eqp_fmk. apply eqp_ring. ring.
Qed.

Lemma sub_free_awp md a b A B :
  let w := limb_width (bparams a) in
  md <> Honest -> limb_width (bparams b) = w ->
  is_bn rho md a A -> is_bn rho md b B -> in_word a A ->
  Forall (fun v => v <= max_word (bparams b) + (2 ^ Z.of_nat w - 1)) A ->
  (1 <= w)%nat -> (1 <= length A)%nat -> (length B <= length A)%nat ->
  group_room (sub_word a b) w ->
  awp md rho (sub a b) (field_diff A B ++ regroup_aux (sub_word a b) w A A) (fun d =>
    ev rho (limbs d) (field_diff A B) /\ bparams d = params_new w (length A)).
Proof.
  intros w Hmd Hw HA HB WA WA' Hw1 HLA HLB Hroom. unfold sub. apply awp_bind. astep. fold w.
  assert (NA : n_limbs (bparams a) = length A) by apply HA. rewrite NA.
  apply alloc_from_nat_awp; [apply field_diff_length|apply field_diff_canon|intros Hm; congruence|].
  intros d (D1 & D2 & D3 & D4 & _) D5.
  assert (Hd : max_word (bparams d) = 2 ^ Z.of_nat w - 1) by (rewrite D5; apply params_word).
  destruct HB as (B1 & B2 & B3 & B4 & B5).
  destruct (add_ok b d) as (c & C1 & C2 & C3 & C4 & _).
  { split; auto. rewrite B3. symmetry. apply (ev_length _ _ _ B1). }
  { split; auto. rewrite D3. symmetry. apply (ev_length _ _ _ D1). }
  { rewrite Hw, D5. reflexivity. }
  rewrite C1. cbn [lift bind]. apply awp_bind_all. astep.
  assert (HMc : Z.max (max_word (bparams a)) (max_word (bparams c)) = sub_word a b).
  { rewrite C2. cbn [add_params max_word]. rewrite Hd. reflexivity. }
  pose proof (regroup_awp rho one md a c A A) as HG. cbv zeta in HG. fold w in HG. rewrite HMc in HG.
  eapply awp_mono; [apply HG; clear HG|]; auto.
  - rewrite C2. cbn [add_params limb_width]. auto.
  - apply HA.
  - eapply ev_field_diff; [exact HLB|]. apply C4; [exact B1|exact D1].
  - apply HA.
  - apply C3.
  - rewrite C2. cbn [add_params max_word]. rewrite Hd. unfold in_word in WA. rewrite Forall_forall in *.
    intros v Hv. specialize (WA v Hv). specialize (WA' v Hv). lia.
  - apply sides_zero_same; auto. apply Hroom.
  - intros Hm. congruence.
  - cbv beta. intros _ _. astep. auto.
Qed.
Definition min_free_aux (x : bool) (w : nat) (M : Z) (A B : list Z) : list Z :=
  let n := Nat.max (length A) (length B) in
  let G := padded n (wsel x B A) in
  [Z.b2z x] ++ ((padded n (wsel x A B) ++ G) ++ (field_diff G B ++ regroup_aux M w G G)).

Lemma min_free_awp md a b A B x :
  let w := limb_width (bparams a) in
  let n := Nat.max (length A) (length B) in
  md <> Honest -> limb_width (bparams b) = w ->
  is_bn rho md a A -> is_bn rho md b B -> 0 <= max_word (bparams b) ->
  Forall (fun v => 0 <= v < 2 ^ Z.of_nat w) A -> Forall (fun v => 0 <= v < 2 ^ Z.of_nat w) B ->
  (1 <= w)%nat -> (1 <= n)%nat ->
  group_room (min_word b) w ->
  awp md rho (bn_min a b) (min_free_aux x w (min_word b) A B) (fun r => is_bn rho md r (padded n (wsel x A B)) /\
    bparams r = params_new w n).
Proof.
  intros w n Hmd Hw HA HB H0 RA RB Hw1 Hn Hroom. unfold bn_min, min_free_aux. fold n.
  pose proof (pow2_pos w) as HP.
  set (G := padded n (wsel x B A)). set (X := 2 ^ Z.of_nat w) in *.
  assert (RG : Forall (fun v => 0 <= v < X) G) by (apply padded_Forall; [lia|now destruct x]).
  assert (LG : length G = n) by (apply padded_length; destruct x; cbn [wsel]; lia).
  apply awp_bind. astep. eapply awp_mono; [apply (bit_alloc_awp rho one md _ x)|].
  { intros Hm. congruence. }
  cbv beta. intros sel [Hs1 Hs2]. apply awp_bind. astep.
  eapply awp_mono; [apply (switch_awp rho one md sel x a b A B); auto; intros Hm; now elim Hmd|].
  cbv beta zeta. fold n w. intros [lesser greater] (L1 & L2 & L3 & L4). cbn [fst snd] in *.
  apply awp_bind_all. astep.
  assert (Hmw : max_word (bparams greater) = X - 1) by (rewrite L4; apply params_word).
  assert (Hsw : sub_word greater b = min_word b).
  { unfold sub_word, min_word. rewrite Hmw, L4, Hw. cbn [params_new limb_width]. fold X. lia. }
  assert (Hwg : limb_width (bparams greater) = w) by (rewrite L4; reflexivity).
  pose proof (sub_free_awp md greater b G B) as HS. cbv zeta in HS. rewrite Hsw, Hwg in HS. fold X in HS.
  eapply awp_mono; [apply HS; clear HS|]; auto.
  - unfold in_word. rewrite Hmw. eapply Forall_impl; [|exact RG]. cbv beta; lia.
  - eapply Forall_impl; [|exact RG]. cbv beta; lia.
  - lia.
  - lia.
  - cbv beta. intros _ _. astep. auto.
Qed.
End Rho.

Lemma top_min_free wit a b A B s r s' rho0 (x : bool) :
  let w := limb_width (bparams a) in
  let X := 2 ^ Z.of_nat w in
  good_for rho0 s -> bignat_for rho0 s a A -> bignat_for rho0 s b B -> limb_width (bparams b) = w ->
  run wit (bn_min a b) s = (Ok r, s') -> (1 <= w)%nat -> B <> [] ->
  Forall (fun v => v < X) A -> Forall (fun v => v < X) B ->
  group_room (max_word (bparams b) + (X - 1)) w ->
  exists rho, same_on s rho rho0 /\ sat rho s' /\ int_of rho r = value_of X (if x then B else A).
Proof.
  intros w X G Ha Hb Hwb Hr Hw HB RA RB Hroom. apply nonempty_length in HB.
  set (n := Nat.max (length A) (length B)).
  pose proof (bignat_for_canon _ _ _ _ G Ha) as CA. pose proof (bignat_for_canon _ _ _ _ G Hb) as CB.
  assert (RA' : Forall (fun v => 0 <= v < X) A).
  { rewrite Forall_forall in *. intros v Hv. specialize (CA v Hv). specialize (RA v Hv). unfold canon in CA. lia. }
  assert (RB' : Forall (fun v => 0 <= v < X) B).
  { rewrite Forall_forall in *. intros v Hv. specialize (CB v Hv). specialize (RB v Hv). unfold canon in CB. lia. }
  destruct (awp_run wit (bn_min a b) s rho0 (min_free_aux x w (min_word b) A B)
    (fun rho r => is_bn rho (md_of wit) r (padded n (wsel x A B)) /\ bparams r = params_new w n) r s' G) as (rho & H1 & H2 & H3); [|exact Hr|].
  { intros rho Hso one. destruct (bignat_for_is _ _ _ _ _ wit G Ha Hso one) as [Ia Wa].
    destruct (bignat_for_is _ _ _ _ _ wit G Hb Hso one) as [Ib Wb].
    apply (min_free_awp rho one (md_of wit) a b A B x); auto.
    - intros Hm. exact (md_of_not wit False Hm).
    - eapply in_word_max; eauto; lia.
    - lia.
    - unfold min_word. rewrite Hwb. exact Hroom. }
  exists rho. split; auto. split; [apply H2, same_on_refl|].
  destruct (H3 rho (same_on_refl _ _)) as [(K1 & _) K2]. unfold int_of.
  rewrite (ev_canon _ _ _ K1) by (apply padded_Forall; [apply canon_0|now destruct x]). rewrite K2. cbn [params_new limb_width].
  rewrite padded_value. now destruct x.
Qed.

Lemma top_sub_free wit a b A B s d s' rho0 :
  let w := limb_width (bparams a) in
  let X := 2 ^ Z.of_nat w in
  good_for rho0 s -> bignat_for rho0 s a A -> bignat_for rho0 s b B -> limb_width (bparams b) = w ->
  run wit (sub a b) s = (Ok d, s') -> (1 <= w)%nat -> A <> [] -> (length B <= length A)%nat ->
  Forall (fun v => v <= max_word (bparams b) + (X - 1)) A ->
  group_room (Z.max (max_word (bparams a)) (max_word (bparams b) + (X - 1))) w ->
  exists rho, same_on s rho rho0 /\ sat rho s' /\
    wires rho (limbs d) = map (fun i => (nth i A 0 - nth i B 0) mod modulus) (seq 0 (length A)).
Proof.
  intros w X G Ha Hb Hwb Hr Hw HA HL HB Hroom. apply nonempty_length in HA.
  destruct (awp_run wit (sub a b) s rho0 (field_diff A B ++ regroup_aux (sub_word a b) w A A)
    (fun rho d => ev rho (limbs d) (field_diff A B) /\ bparams d = params_new w (length A)) d s' G) as (rho & H1 & H2 & H3); [|exact Hr|].
  { intros rho Hso one. destruct (bignat_for_is _ _ _ _ _ wit G Ha Hso one) as [Ia Wa].
    destruct (bignat_for_is _ _ _ _ _ wit G Hb Hso one) as [Ib Wb].
    apply (sub_free_awp rho one (md_of wit) a b A B); auto. intros Hm. exact (md_of_not wit False Hm). }
  exists rho. split; auto. split; [apply H2, same_on_refl|].
  destruct (H3 rho (same_on_refl _ _)) as [K1 _]. exact (ev_canon _ _ _ K1 (field_diff_canon A B)).
Qed.
End Free.
