(** Selection gadgets: mux, switch, mux_tree, and sub, min which use them. *)
From Coq Require Import ZArith Znumtheory Bool List Lia Setoid Morphisms ZifyBool ZifyNat.
From Verif.Model Require Import Base CS Bellpepper Util Poly Bignat Gadget.
From Verif.Spec Require Import Spec.
From Verif.Proofs Require Import Field Arith Convert Limbs Wp Lc BitNum PolyP BoolP BignatEq BignatAlloc Group Carry Regroup Mult MultC TopBits TopPoly TopBignat1 PureOps TopPure Owp MinBits.
Import ListNotations.
Local Open Scope Z_scope.

Lemma padded_length n l : (length l <= n)%nat -> length (padded n l) = n.
Proof. intros. unfold padded. rewrite app_length, repeat_length. lia. Qed.
Lemma padded_same l : padded (length l) l = l.
Proof. unfold padded. rewrite Nat.sub_diag. apply app_nil_r. Qed.
Lemma padded_value B n l : value_of B (padded n l) = value_of B l.
Proof. apply value_of_pad. Qed.
Lemma padded_Forall (P : Z -> Prop) n l : P 0 -> Forall P l -> Forall P (padded n l).
Proof.
  intros H0 H. apply Forall_app. split; auto. apply Forall_forall. intros x Hx. apply repeat_spec in Hx. now subst.
Qed.
Lemma padded_padded m n l : (length l <= n)%nat -> (n <= m)%nat -> padded m (padded n l) = padded m l.
Proof.
  intros. unfold padded. rewrite app_length, repeat_length, <- app_assoc, <- repeat_app. do 2 f_equal. lia.
Qed.

Lemma combine3_in {A B C} (w0 : list A) (w1 : list B) (wo : list C) a b c i :
  (i < length w0)%nat -> length w1 = length w0 -> length wo = length w0 ->
  In (i, ((nth i w0 a, nth i w1 b), nth i wo c)) (combine (seq 0 (length w0)) (combine (combine w0 w1) wo)).
Proof.
  intros Hi H1 H2.
  assert (HL : length (combine (combine w0 w1) wo) = length w0) by (rewrite !combine_length; lia).
  assert (HE : (i, ((nth i w0 a, nth i w1 b), nth i wo c)) =
    nth i (combine (seq 0 (length w0)) (combine (combine w0 w1) wo)) (0%nat, ((a, b), c))).
  { rewrite combine_nth by (rewrite seq_length; auto). rewrite combine_nth by (rewrite combine_length; lia).
    rewrite combine_nth by auto. rewrite seq_nth by auto. reflexivity. }
  rewrite HE. apply nth_In. rewrite combine_length, seq_length, HL. lia.
Qed.
Lemma combine3_inv {A B C} (w0 : list A) (w1 : list B) (wo : list C) p a b c :
  In p (combine (seq 0 (length w0)) (combine (combine w0 w1) wo)) -> length w1 = length w0 -> length wo = length w0 ->
  exists i, (i < length w0)%nat /\ p = (i, ((nth i w0 a, nth i w1 b), nth i wo c)).
Proof.
  intros Hp H1 H2.
  assert (HL : length (combine (combine w0 w1) wo) = length w0) by (rewrite !combine_length; lia).
  apply (In_nth _ _ (0%nat, ((a, b), c))) in Hp. destruct Hp as (i & Hi & <-).
  rewrite combine_length, seq_length, HL in Hi. exists i. split; [lia|].
  rewrite combine_nth by (rewrite seq_length; auto). rewrite combine_nth by (rewrite combine_length; lia).
  rewrite combine_nth by auto. rewrite seq_nth by lia. reflexivity.
Qed.

Section Mux.
Context {E : Env} {W : Wf E}.

(** ** Padding *)
Lemma with_n_limbs_inv b n c : with_n_limbs b n = Ok c -> well_shaped b ->
  (length (limbs b) <= n)%nat /\ limbs c = limbs b ++ repeat lc_zero (n - length (limbs b)) /\
  bparams c = mkParams (min_bits (bparams b)) (max_word (bparams b)) (limb_width (bparams b)) n /\
  value c = value b /\ limb_values c = option_map (padded n) (limb_values b) /\ well_shaped c.
Proof.
  unfold with_n_limbs. intros H [S1 S2]. rewrite S1 in *.
  destruct (Nat.ltb_spec n (length (limbs b))); [discriminate|]. destruct (Nat.eqb_spec n (length (limbs b))).
  - injection H as <-. split; auto. subst n. rewrite Nat.sub_diag. cbn [repeat]. rewrite app_nil_r. split; auto.
    split; [destruct b as [? ? ? []]; cbn in *; congruence|]. split; auto. split; [|split; auto].
    destruct (limb_values b); cbn [option_map]; auto. destruct S2 as [S2 _]. now rewrite <- S2, padded_same.
  - injection H as <-. cbn [limbs bparams value limb_values]. split; auto. split; auto. split; auto. split; auto. split; auto.
    split; cbn [limbs bparams n_limbs limb_values]; unfold pad_to; [rewrite app_length, repeat_length; lia|].
    destruct (limb_values b) as [vs|]; cbn [option_map]; auto. destruct S2 as [S2 S3].
    rewrite !app_length, !repeat_length. split; [lia|]. apply (padded_Forall canon); auto. apply canon_0.
Qed.
Lemma with_n_limbs_shape b n c : with_n_limbs b n = Ok c -> n_limbs (bparams b) = length (limbs b) ->
  (length (limbs b) <= n)%nat /\ limbs c = limbs b ++ repeat lc_zero (n - length (limbs b)) /\
  bparams c = mkParams (min_bits (bparams b)) (max_word (bparams b)) (limb_width (bparams b)) n.
Proof.
  unfold with_n_limbs. intros H S1. rewrite S1 in *.
  destruct (Nat.ltb_spec n (length (limbs b))); [discriminate|]. destruct (Nat.eqb_spec n (length (limbs b))).
  - injection H as <-. split; auto. subst n. rewrite Nat.sub_diag. cbn [repeat]. rewrite app_nil_r. split; auto.
    destruct b as [? ? ? []]; cbn in *; congruence.
  - injection H as <-. cbn [limbs bparams]. auto.
Qed.
Lemma with_n_limbs_ok b n : well_shaped b -> (length (limbs b) <= n)%nat -> exists c, with_n_limbs b n = Ok c.
Proof.
  intros [S1 _] H. unfold with_n_limbs. rewrite S1, (proj2 (Nat.ltb_ge _ _)) by auto. destruct (_ =? _)%nat; eauto.
Qed.
Lemma pad_wires rho ls n : wires rho (ls ++ repeat lc_zero (n - length ls)) = padded n (wires rho ls).
Proof. unfold padded, wires. rewrite map_app, map_repeat', map_length. reflexivity. Qed.
Lemma ev_padded rho ls vs n : ev rho ls vs -> ev rho (ls ++ repeat lc_zero (n - length ls)) (padded n vs).
Proof.
  intros H. unfold padded. rewrite (ev_length _ _ _ H). apply Forall2_app; auto.
  clear. induction (n - length vs)%nat; simpl; constructor; auto. reflexivity.
Qed.
Lemma is_bn_shaped rho md b vs : is_bn rho md b vs -> well_shaped b.
Proof. intros (H1 & H2 & H3 & H4 & H5). split; auto. now rewrite H3, (ev_length _ _ _ H1). Qed.
Lemma is_bn_padded rho md b vs n c : is_bn rho md b vs -> with_n_limbs b n = Ok c -> is_bn rho md c (padded n vs).
Proof.
  intros Hb Hc. pose proof (with_n_limbs_inv _ _ _ Hc (is_bn_shaped _ _ _ _ Hb)) as (H1 & H2 & H3 & H4 & H5 & H6).
  destruct Hb as (B1 & B2 & B3 & B4 & B5). split; [rewrite H2; now apply ev_padded|].
  split; [apply H6|]. rewrite (ev_length _ _ _ B1) in H1. split; [rewrite H3; cbn [n_limbs]; symmetry; now apply padded_length|].
  split; [apply padded_Forall; auto using canon_0|]. intros Hm. destruct (B5 Hm) as [B6 B7].
  rewrite H5, B6, H4, B7, H3. cbn [limb_width option_map]. now rewrite padded_value.
Qed.

Definition wsel {A} (x : bool) (a b : A) : A := if x then b else a.

Section Rho.
Context (rho : assignment) (one : rho ONE = 1).

Lemma mux_con s x l0 l1 lo : wire_bit rho (b_lc s) x ->
  eqp (lc_eval rho (b_lc s) * lc_eval rho (lc_sub l1 l0)) (lc_eval rho (lc_sub lo l0)) <->
  eqp (lc_eval rho lo) (lc_eval rho (wsel x l0 l1)).
Proof.
  intros H. unfold wire_bit in H. rewrite H. lcs. rewrite !eqp_div.
  destruct x; cbn [Z.b2z wsel]; split; intros [k Hk]; exists (- k); lia.
Qed.

Lemma mux_wires_swp md s x w0 w1 wo : wire_bit rho (b_lc s) x -> length w1 = length w0 -> length wo = length w0 ->
  swp md rho (mux_wires s w0 w1 wo) (fun _ => wires rho wo = wires rho (wsel x w0 w1)).
Proof.
  intros Hx H1 H2. unfold mux_wires.
  apply swp_iterM with (R := fun p => eqp (lc_eval rho (snd (snd p))) (lc_eval rho (wsel x (fst (fst (snd p))) (snd (fst (snd p)))))).
  - intros (i & (l0, l1) & lo) _. sstep. cbn [fst snd]. intros C. apply (mux_con _ _ _ _ _ Hx) in C. exact C.
  - intros H. apply (nth_ext _ _ 0 0).
    + unfold wires. rewrite !map_length. destruct x; cbn [wsel]; auto. congruence.
    + intros i Hi. unfold wires in Hi. rewrite map_length, H2 in Hi. rewrite !nth_wires.
      apply feval_eq. specialize (H _ (combine3_in w0 w1 wo lc_zero lc_zero lc_zero i Hi H1 H2)). cbn [fst snd] in H.
      destruct x; exact H.
Qed.
Lemma mux_wires_awp md s x w0 w1 wo A : wire_bit rho (b_lc s) x -> length w1 = length w0 ->
  ev rho wo A -> ev rho (wsel x w0 w1) A ->
  awp md rho (mux_wires s w0 w1 wo) [] (fun _ => True).
Proof.
  intros Hx H1 HO HA. unfold mux_wires. apply awp_iterM_nil; auto. intros p Hp.
  assert (H2 : length wo = length w0).
  { rewrite (ev_length _ _ _ HO), <- (ev_length _ _ _ HA). destruct x; cbn [wsel]; auto. }
  apply (combine3_inv _ _ _ _ lc_zero lc_zero lc_zero) in Hp; auto. destruct Hp as (i & Hi & ->).
  astep; auto. apply (mux_con _ _ _ _ _ Hx). rewrite (ev_nth _ _ _ i HO).
  replace (wsel x (nth i w0 lc_zero) (nth i w1 lc_zero)) with (nth i (wsel x w0 w1) lc_zero) by now destruct x.
  symmetry. now apply ev_nth.
Qed.

Lemma mux_swp md s x i0 i1 : wire_bit rho (b_lc s) x -> n_limbs (bparams i0) = length (limbs i0) -> n_limbs (bparams i1) = length (limbs i1) ->
  let n := Nat.max (length (limbs i0)) (length (limbs i1)) in
  swp md rho (mux s i0 i1) (fun out => limb_width (bparams i1) = limb_width (bparams i0) /\
    bparams out = params_new (limb_width (bparams i0)) n /\ length (limbs out) = n /\
    wires rho (limbs out) = padded n (wires rho (limbs (wsel x i0 i1)))).
Proof.
  intros Hx S0 S1 n. unfold mux. rewrite S0, S1. fold n. sstep. sstep. intros j0 J0. sstep. sstep. intros j1 J1.
  destruct (with_n_limbs_shape _ _ _ J0 S0) as (A1 & A2 & A3).
  destruct (with_n_limbs_shape _ _ _ J1 S1) as (B1 & B2 & B3).
  destruct (_ || _) eqn:Ed; [exact I|]. apply orb_false_iff in Ed. destruct Ed as [_ Ew].
  apply negb_false_iff, Nat.eqb_eq in Ew. rewrite A3, B3 in Ew. cbn [limb_width] in Ew.
  unfold gadget_alloc. sstep. sstep. apply alloc_from_nat_swp. intros out P1 P2. cbn [limb_width n_limbs] in *.
  rewrite A3 in P1, P2. cbn [limb_width n_limbs] in *. sstep.
  eapply swp_mono; [apply mux_wires_swp; eauto|].
  - rewrite A2, B2, !app_length, !repeat_length. lia.
  - rewrite A2, app_length, repeat_length, P2. lia.
  - cbv beta. intros _ H. sstep. split; auto. split; auto. split; auto. rewrite H.
    destruct x; cbn [wsel]; [rewrite B2|rewrite A2]; apply pad_wires.
Qed.

Lemma mux_awp md s x i0 i1 A0 A1 : wire_bit rho (b_lc s) x -> (md = Honest -> b_val s = Some x) ->
  is_bn rho md i0 A0 -> is_bn rho md i1 A1 -> limb_width (bparams i1) = limb_width (bparams i0) ->
  let n := Nat.max (length A0) (length A1) in
  let w := limb_width (bparams i0) in
  let A := padded n (wsel x A0 A1) in
  (md = Honest -> (1 <= n)%nat /\ (w < NUM_BITS)%nat /\ Forall (fun v => 0 <= v < 2 ^ Z.of_nat w) (wsel x A0 A1)) ->
  awp md rho (mux s i0 i1) A (fun out => is_bn rho md out A /\ bparams out = params_new w n).
Proof.
  intros Hx Hs B0 B1 Hw n w A HH. unfold mux.
  pose proof (is_bn_shaped _ _ _ _ B0) as S0. pose proof (is_bn_shaped _ _ _ _ B1) as S1.
  rewrite (proj1 S0), (proj1 S1). rewrite (ev_length _ _ _ (proj1 B0)), (ev_length _ _ _ (proj1 B1)). fold n.
  destruct (with_n_limbs_ok i0 n S0) as [j0 J0]. { rewrite (ev_length _ _ _ (proj1 B0)). lia. }
  destruct (with_n_limbs_ok i1 n S1) as [j1 J1]. { rewrite (ev_length _ _ _ (proj1 B1)). lia. }
  destruct (with_n_limbs_inv _ _ _ J0 S0) as (P1 & P2 & P3 & P4 & P5 & P6).
  destruct (with_n_limbs_inv _ _ _ J1 S1) as (Q1 & Q2 & Q3 & Q4 & Q5 & Q6).
  pose proof (is_bn_padded _ _ _ _ _ _ B0 J0) as N0. pose proof (is_bn_padded _ _ _ _ _ _ B1 J1) as N1.
  rewrite J0, J1. cbn [lift bind].
  assert (HL0 : length (limbs j0) = n). { rewrite (ev_length _ _ _ (proj1 N0)). apply padded_length. lia. }
  assert (HL1 : length (limbs j1) = n). { rewrite (ev_length _ _ _ (proj1 N1)). apply padded_length. lia. }
  rewrite HL0, HL1, Nat.eqb_refl, P3, Q3. cbn [limb_width n_limbs negb orb]. rewrite Hw, Nat.eqb_refl. cbn [negb].
  assert (HA : length A = n) by (apply padded_length; destruct x; cbn [wsel]; lia).
  apply awp_bind_all. astep. unfold gadget_alloc. cbn [limb_width n_limbs]. fold w.
  apply alloc_from_nat_awp; auto.
  - apply padded_Forall; [apply canon_0|]. destruct x; cbn [wsel]; [apply B1|apply B0].
  - intros Hm. destruct (HH Hm) as (H1 & H2 & H3). split; auto. split; auto.
    assert (HR : Forall (fun v => 0 <= v < 2 ^ Z.of_nat w) A).
    { apply padded_Forall; auto. pose proof (pow2_pos w). lia. }
    exists (value_of (2 ^ Z.of_nat w) A). split; [|split].
    + unfold mux_value. rewrite (Hs Hm), Q4, P4. unfold A. rewrite padded_value. unfold w.
      destruct x; cbn [wsel]; [rewrite (is_bn_value _ _ _ _ B1 Hm), Hw|rewrite (is_bn_value _ _ _ _ B0 Hm)]; reflexivity.
    + rewrite <- HA. now apply range_value.
    + rewrite <- HA. now apply digits_unique.
  - intros out O1 O2. apply awp_bind_nil.
    eapply awp_mono; [apply (mux_wires_awp md s x _ _ _ A Hx)|].
    + congruence.
    + apply O1.
    + unfold A. destruct x; cbn [wsel]; [apply N1|apply N0].
    + cbv beta. intros _ _. astep. auto.
Qed.

(** ** switch *)
Lemma switch_swp md s x i0 i1 : wire_bit rho (b_lc s) x -> n_limbs (bparams i0) = length (limbs i0) -> n_limbs (bparams i1) = length (limbs i1) ->
  let n := Nat.max (length (limbs i0)) (length (limbs i1)) in
  swp md rho (switch s i0 i1) (fun o => limb_width (bparams i1) = limb_width (bparams i0) /\
    bparams (fst o) = params_new (limb_width (bparams i0)) n /\ bparams (snd o) = params_new (limb_width (bparams i0)) n /\
    wires rho (limbs (fst o)) = padded n (wires rho (limbs (wsel x i0 i1))) /\
    wires rho (limbs (snd o)) = padded n (wires rho (limbs (wsel x i1 i0)))).
Proof.
  intros Hx S0 S1 n. unfold switch. sstep. sstep. eapply swp_mono; [apply (mux_swp md s x); auto|]. cbv beta zeta.
  intros o0 (A1 & A2 & A3 & A4). sstep. sstep. eapply swp_mono; [apply (mux_swp md (bit_not s) (negb x)); auto; now apply bit_not_wire|].
  cbv beta zeta. intros o1 (C1 & C2 & C3 & C4). sstep. cbn [fst snd]. split; auto. split; auto. split; auto. split; auto.
  fold n in C4. rewrite C4. now destruct x.
Qed.
Lemma switch_awp md s x i0 i1 A0 A1 : wire_bit rho (b_lc s) x -> (md = Honest -> b_val s = Some x) ->
  is_bn rho md i0 A0 -> is_bn rho md i1 A1 -> limb_width (bparams i1) = limb_width (bparams i0) ->
  let n := Nat.max (length A0) (length A1) in
  let w := limb_width (bparams i0) in
  (md = Honest -> (1 <= n)%nat /\ (w < NUM_BITS)%nat /\ Forall (fun v => 0 <= v < 2 ^ Z.of_nat w) A0 /\
     Forall (fun v => 0 <= v < 2 ^ Z.of_nat w) A1) ->
  awp md rho (switch s i0 i1) (padded n (wsel x A0 A1) ++ padded n (wsel x A1 A0)) (fun o =>
    is_bn rho md (fst o) (padded n (wsel x A0 A1)) /\ is_bn rho md (snd o) (padded n (wsel x A1 A0)) /\
    bparams (fst o) = params_new w n /\ bparams (snd o) = params_new w n).
Proof.
  intros Hx Hs B0 B1 Hw n w HH. unfold switch. apply awp_bind. astep.
  eapply awp_mono; [apply (mux_awp md s x i0 i1 A0 A1); auto|].
  - intros Hm. destruct (HH Hm) as (H1 & H2 & H3 & H4). split; auto. split; auto. now destruct x.
  - cbv beta zeta. intros o0 [O1 O2]. apply awp_bind_all. astep.
    replace (wsel x A1 A0) with (wsel (negb x) A0 A1) by now destruct x.
    eapply awp_mono; [apply (mux_awp md (bit_not s) (negb x) i0 i1 A0 A1); auto|].
    + now apply bit_not_wire.
    + intros Hm. cbn [bit_not b_val]. rewrite (Hs Hm). reflexivity.
    + intros Hm. destruct (HH Hm) as (H1 & H2 & H3 & H4). split; auto. split; auto. now destruct x.
    + cbv beta zeta. intros o1 [P1 P2]. astep. cbn [fst snd]. auto.
Qed.

End Rho.
End Mux.
