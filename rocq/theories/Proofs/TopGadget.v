(** Final forms for the selection gadgets, wire equality, public inputs and the lazy cell. *)
From Coq Require Import ZArith Znumtheory Bool String List Lia Setoid Morphisms ZifyBool ZifyNat.
From Verif.Model Require Import Base CS Bellpepper Util Poly Bignat Gadget.
From Verif.Spec Require Import Spec SpecLazy.
From Verif.Proofs Require Import Field Arith Convert Limbs Wp Lc BitNum PolyP BoolP BignatEq BignatAlloc Group Carry Regroup Mult MultC TopBits TopPoly TopBignat1 PureOps TopPure Owp MinBits MuxP SubP TopBignat2.
Import ListNotations.
Local Open Scope Z_scope.

Section Top.
Context {E : Env} {W : Wf E}.

(** ** mux and switch *)
Lemma top_mux_sound wit b x i0 i1 s out s' rho :
  let n := Nat.max (length (limbs i0)) (length (limbs i1)) in
  run wit (mux b i0 i1) s = (Ok out, s') -> sat rho s' -> feval rho (b_lc b) = Z.b2z x ->
  n_limbs (bparams i0) = length (limbs i0) -> n_limbs (bparams i1) = length (limbs i1) ->
  limb_width (bparams i1) = limb_width (bparams i0) /\
  bparams out = params_new (limb_width (bparams i0)) n /\ length (limbs out) = n /\
  wires rho (limbs out) = padded n (wires rho (limbs (if x then i1 else i0))) /\
  int_of rho out = int_of rho (if x then i1 else i0).
Proof.
  intros n Hr Hs Hx S0 S1.
  destruct (swp_run_any _ _ _ _ _ _ _ Hr Hs (mux_swp rho Any b x i0 i1 (proj2 (wire_bit_feval _ _ _) Hx) S0 S1)) as (H1 & H2 & H3 & H4).
  split; auto. split; auto. split; auto. split; auto. unfold int_of. rewrite H4, H2. cbn [params_new limb_width].
  rewrite padded_value. destruct x; cbn [wsel]; congruence.
Qed.
Lemma top_mux_error wit b i0 i1 s : well_shaped i0 -> well_shaped i1 ->
  limb_width (bparams i0) <> limb_width (bparams i1) -> run wit (mux b i0 i1) s = (Err Unsatisfiable, s).
Proof.
  intros S0 S1 Hw. unfold mux. rewrite (proj1 S0), (proj1 S1). set (n := Nat.max _ _).
  destruct (with_n_limbs_ok i0 n S0 ltac:(lia)) as [j0 J0]. destruct (with_n_limbs_ok i1 n S1 ltac:(lia)) as [j1 J1].
  rewrite J0, J1. cbn [lift bind]. apply with_n_limbs_shape in J0; [|apply S0]. apply with_n_limbs_shape in J1; [|apply S1].
  destruct J0 as (_ & _ & ->), J1 as (_ & _ & ->). cbn [limb_width]. rewrite (proj2 (Nat.eqb_neq _ _) Hw), orb_true_r. reflexivity.
Qed.
Lemma top_mux_complete b x i0 i1 A0 A1 s :
  let n := Nat.max (length A0) (length A1) in
  let w := limb_width (bparams i0) in
  good s -> bit_at s b x -> bignat_at s i0 A0 -> bignat_at s i1 A1 -> limb_width (bparams i1) = w ->
  (1 <= n)%nat -> (w < NUM_BITS)%nat -> Forall (fun v => v < 2 ^ Z.of_nat w) (if x then A1 else A0) ->
  exists out s', run true (mux b i0 i1) s = (Ok out, s') /\ good s' /\
    bignat_at s' out (padded n (if x then A1 else A0)) /\ bparams out = params_new w n.
Proof.
  intros n w G Hb H0 H1 Hw Hn HN HR.
  assert (HR' : Forall (fun v => 0 <= v < 2 ^ Z.of_nat w) (if x then A1 else A0)).
  { destruct x; eapply bignat_at_range; eauto. }
  destruct (honest_run (mux b i0 i1) s (padded n (wsel x A0 A1))
    (fun rho out => is_bn rho Honest out (padded n (wsel x A0 A1)) /\ bparams out = params_new w n) G) as (out & s' & Hr & Hg & _ & HQ).
  { intros rho Hag one. destruct (bignat_at_is _ _ _ _ H0 Hag one) as [I0 _]. destruct (bignat_at_is _ _ _ _ H1 Hag one) as [I1 _].
    apply (mux_awp rho Honest b x i0 i1 A0 A1); auto.
    - apply wire_bit_feval. apply Hb; auto.
    - intros _. apply Hb. }
  exists out, s'. split; auto. split; auto. destruct (HQ _ (agree_asg s')) as (Q1 & Q2). split; auto.
  apply is_bignat_at; [intros rho Hrho; apply (HQ _ Hrho)|].
  eapply range_in_word; [exact Q2|]. apply padded_Forall; auto. pose proof (pow2_pos w). lia.
Qed.

Lemma top_switch_sound wit b x i0 i1 s o0 o1 s' rho :
  let n := Nat.max (length (limbs i0)) (length (limbs i1)) in
  run wit (switch b i0 i1) s = (Ok (o0, o1), s') -> sat rho s' -> feval rho (b_lc b) = Z.b2z x ->
  n_limbs (bparams i0) = length (limbs i0) -> n_limbs (bparams i1) = length (limbs i1) ->
  limb_width (bparams i1) = limb_width (bparams i0) /\
  wires rho (limbs o0) = padded n (wires rho (limbs (if x then i1 else i0))) /\
  wires rho (limbs o1) = padded n (wires rho (limbs (if x then i0 else i1))) /\
  int_of rho o0 = int_of rho (if x then i1 else i0) /\ int_of rho o1 = int_of rho (if x then i0 else i1).
Proof.
  intros n Hr Hs Hx S0 S1.
  destruct (swp_run_any _ _ _ _ _ _ _ Hr Hs (switch_swp rho (proj1 Hs) Any b x i0 i1 (proj2 (wire_bit_feval _ _ _) Hx) S0 S1)) as (H1 & H2 & H3 & H4 & H5).
  cbn [fst snd] in *. split; auto. split; auto. split; [now destruct x|].
  unfold int_of. rewrite H4, H5, H2, H3. cbn [params_new limb_width]. rewrite !padded_value.
  destruct x; cbn [wsel]; rewrite ?H1; auto.
Qed.
Lemma top_switch_complete b x i0 i1 A0 A1 s :
  let n := Nat.max (length A0) (length A1) in
  let w := limb_width (bparams i0) in
  good s -> bit_at s b x -> bignat_at s i0 A0 -> bignat_at s i1 A1 -> limb_width (bparams i1) = w ->
  (1 <= n)%nat -> (w < NUM_BITS)%nat ->
  Forall (fun v => v < 2 ^ Z.of_nat w) A0 -> Forall (fun v => v < 2 ^ Z.of_nat w) A1 ->
  exists o0 o1 s', run true (switch b i0 i1) s = (Ok (o0, o1), s') /\ good s' /\
    bignat_at s' o0 (padded n (if x then A1 else A0)) /\ bignat_at s' o1 (padded n (if x then A0 else A1)).
Proof.
  intros n w G Hb H0 H1 Hw Hn HN HR0 HR1.
  pose proof (bignat_at_range _ _ _ _ H0 HR0) as R0. pose proof (bignat_at_range _ _ _ _ H1 HR1) as R1.
  destruct (honest_run (switch b i0 i1) s (padded n (wsel x A0 A1) ++ padded n (wsel x A1 A0))
    (fun rho o => is_bn rho Honest (fst o) (padded n (wsel x A0 A1)) /\ is_bn rho Honest (snd o) (padded n (wsel x A1 A0)) /\
       bparams (fst o) = params_new w n /\ bparams (snd o) = params_new w n) G) as ([o0 o1] & s' & Hr & Hg & _ & HQ).
  { intros rho Hag one. destruct (bignat_at_is _ _ _ _ H0 Hag one) as [I0 _]. destruct (bignat_at_is _ _ _ _ H1 Hag one) as [I1 _].
    apply (switch_awp rho one Honest b x i0 i1 A0 A1); auto.
    - apply wire_bit_feval. apply Hb; auto.
    - intros _. apply Hb. }
  exists o0, o1, s'. split; auto. split; auto. destruct (HQ _ (agree_asg s')) as (Q1 & Q2 & Q3 & Q4). cbn [fst snd] in *.
  assert (K : forall o A, Forall (fun v => 0 <= v < 2 ^ Z.of_nat w) A -> bparams o = params_new w n -> in_word o (padded n A)).
  { intros o A HA Hp. eapply range_in_word; [exact Hp|]. apply padded_Forall; auto. pose proof (pow2_pos w). lia. }
  split; (apply is_bignat_at; [intros rho Hrho; destruct x; apply (HQ _ Hrho)|]); apply K; auto; now destruct x.
Qed.

(** ** mux_tree *)
Fixpoint tree_index (xs : list bool) : nat :=
  match xs with [] => 0 | x :: xs => (if x then 2 ^ length xs else 0) + tree_index xs end%nat.
Lemma tree_index_lt xs : (tree_index xs < 2 ^ length xs)%nat.
Proof. induction xs as [|x xs IH]; cbn [tree_index length Nat.pow]; [lia|]. destruct x; lia. Qed.
Lemma tree_index_bits xs : Z.of_nat (tree_index xs) = bits_value (rev xs).
Proof.
  induction xs as [|x xs IH]; [reflexivity|]. cbn [tree_index rev]. unfold bits_value in *. rewrite map_app, value_of_app, map_length, rev_length.
  rewrite Nat2Z.inj_add, IH. cbn [map value_of].
  assert (HP : Z.of_nat (2 ^ length xs) = 2 ^ Z.of_nat (length xs)) by (rewrite Nat2Z.inj_pow; reflexivity).
  destruct x; cbn [Z.b2z]; rewrite ?HP; ring.
Qed.

Lemma nth_skip {A} (h i : nat) (l : list A) d : nth i (skipn h l) d = nth (h + i) l d.
Proof. revert l. induction h as [|h IH]; intros l; [reflexivity|]. destruct l; [destruct i; reflexivity|]. cbn [skipn Nat.add nth]. apply IH. Qed.
Lemma nth_first {A} (h i : nat) (l : list A) d : (i < h)%nat -> nth i (firstn h l) d = nth i l d.
Proof. revert i l. induction h as [|h IH]; intros i l Hi; [lia|]. destruct l; [destruct i; reflexivity|]. destruct i; cbn; auto. apply IH. lia. Qed.

Lemma mux_tree_swp rho (one : rho ONE = 1) md d : forall bits xs inputs,
  Forall2 (fun b x => wire_bit rho (b_lc b) x) bits xs ->
  Forall (fun i => n_limbs (bparams i) = length (limbs i)) inputs ->
  swp md rho (mux_tree bits inputs) (fun out =>
    length inputs = (2 ^ length bits)%nat /\
    n_limbs (bparams out) = length (limbs out) /\
    limb_width (bparams out) = limb_width (bparams (nth (tree_index xs) inputs d)) /\
    Forall (fun i => limb_width (bparams i) = limb_width (bparams out) /\ (length (limbs i) <= length (limbs out))%nat) inputs /\
    wires rho (limbs out) = padded (length (limbs out)) (wires rho (limbs (nth (tree_index xs) inputs d)))).
Proof.
  induction bits as [|b bits IH]; intros xs inputs Hx Hi.
  - inversion Hx; subst. destruct inputs as [|i [|? ?]]; cbn [mux_tree]; try exact I.
    sstep. cbn [length Nat.pow nth tree_index]. split; auto. split; [inversion Hi; auto|]. split; auto.
    split; [constructor; auto|]. unfold wires. rewrite <- (map_length (feval rho) (limbs i)), padded_same. reflexivity.
  - inversion Hx as [|? x ? xs' Hb Hxs]; subst. cbn [mux_tree]. destruct (Nat.eqb_spec (length inputs mod 2) 0) as [He|]; cbn [negb]; [|exact I].
    set (h := (length inputs / 2)%nat). pose proof (Nat.div_mod (length inputs) 2 ltac:(lia)) as HD. fold h in HD.
    assert (HF : Forall (fun i => n_limbs (bparams i) = length (limbs i)) (firstn h inputs) /\
                 Forall (fun i => n_limbs (bparams i) = length (limbs i)) (skipn h inputs)).
    { rewrite <- Forall_app, firstn_skipn. auto. }
    destruct HF as [HF1 HF2].
    sstep. sstep. eapply swp_mono; [apply (IH xs' _ Hxs HF1)|]. cbv beta. intros l (L1 & L2 & L3 & L4 & L5).
    sstep. sstep. eapply swp_mono; [apply (IH xs' _ Hxs HF2)|]. cbv beta. intros r (R1 & R2 & R3 & R4 & R5).
    sstep. eapply swp_mono; [apply (mux_swp rho md b x l r Hb L2 R2)|]. cbv beta zeta. intros out (O1 & O2 & O3 & O4).
    rewrite firstn_length in L1. rewrite skipn_length in R1.
    assert (HH : h = (2 ^ length bits)%nat) by lia. pose proof (tree_index_lt xs') as HT.
    rewrite (Forall2_length _ _ _ Hxs) in HH, L1, R1.
    split; [cbn [length Nat.pow]; rewrite (Forall2_length _ _ _ Hxs); lia|]. split; [rewrite O2, O3; reflexivity|].
    assert (HN : nth (tree_index (x :: xs')) inputs d = nth (tree_index xs') (if x then skipn h inputs else firstn h inputs) d).
    { cbn [tree_index]. destruct x; [rewrite nth_skip; f_equal; lia|rewrite nth_first by lia; reflexivity]. }
    split; [rewrite O2, HN; cbn [params_new limb_width]; destruct x; congruence|].
    split.
    { rewrite <- (firstn_skipn h inputs). apply Forall_app. split; (eapply Forall_impl; [|eassumption]); cbv beta; intros i [Hi1 Hi2];
        rewrite O2, O3; cbn [params_new limb_width]; split; try congruence; lia. }
    rewrite O4, O3, HN. destruct x; cbn [wsel]; [rewrite R5|rewrite L5]; rewrite padded_padded; auto; rewrite ?wires_length; try lia.
    + rewrite Forall_forall in R4. apply R4, nth_In. rewrite skipn_length. lia.
    + rewrite Forall_forall in L4. apply L4, nth_In. rewrite firstn_length. lia.
Qed.

Lemma top_mux_tree_sound wit bits xs inputs s out s' rho d :
  run wit (mux_tree bits inputs) s = (Ok out, s') -> sat rho s' ->
  Forall2 (fun b x => feval rho (b_lc b) = Z.b2z x) bits xs ->
  Forall (fun i => n_limbs (bparams i) = length (limbs i)) inputs ->
  let i := nth (Z.to_nat (bits_value (rev xs))) inputs d in
  length inputs = (2 ^ length bits)%nat /\ In i inputs /\
  limb_width (bparams out) = limb_width (bparams i) /\
  wires rho (limbs out) = padded (length (limbs out)) (wires rho (limbs i)) /\
  int_of rho out = int_of rho i.
Proof.
  intros Hr Hs Hx Hi i.
  assert (Hx' : Forall2 (fun b x => wire_bit rho (b_lc b) x) bits xs).
  { clear -Hx W. induction Hx; constructor; auto. now apply wire_bit_feval. }
  destruct (swp_run_any _ _ _ _ _ _ _ Hr Hs (mux_tree_swp rho (proj1 Hs) Any d bits xs inputs Hx' Hi)) as (H1 & H2 & H3 & H4 & H5).
  unfold i. rewrite <- tree_index_bits, Nat2Z.id. split; auto.
  split; [apply nth_In; pose proof (tree_index_lt xs); rewrite (Forall2_length _ _ _ Hx') in H1; lia|].
  split; auto. split; auto. unfold int_of. rewrite H5, H3. apply padded_value.
Qed.
Lemma mux_tree_count bits : forall inputs,
  rets (mux_tree bits inputs) (fun _ => length inputs = (2 ^ length bits)%nat).
Proof.
  induction bits as [|b bits IH]; intros inputs; cbn [mux_tree].
  - destruct inputs as [|i [|? ?]]; cbn [rets]; auto.
  - destruct (Nat.eqb_spec (length inputs mod 2) 0) as [He|]; cbn [negb]; [|exact I].
    set (h := (length inputs / 2)%nat). pose proof (Nat.div_mod (length inputs) 2 ltac:(lia)) as HD. fold h in HD.
    apply rets_bind, rets_ns. eapply rets_mono; [apply IH|]. cbv beta. intros l H. apply rets_skip; intros r.
    eapply rets_mono; [apply rets_any|]. cbv beta. intros o _. rewrite firstn_length in H. cbn [length Nat.pow]. lia.
Qed.
Lemma top_mux_tree_count wit bits inputs s : length inputs <> (2 ^ length bits)%nat ->
  forall out, fst (run wit (mux_tree bits inputs) s) <> Ok out.
Proof.
  intros Hl out Hr.
  destruct (run wit (mux_tree bits inputs) s) as [r s'] eqn:Hrun. cbn [fst] in Hr. subst r.
  exact (Hl (rets_run wit _ _ _ _ _ (mux_tree_count bits inputs) Hrun)).
Qed.

(** The auxiliary values and the result of an honest run. *)
Fixpoint tree_val (xs : list bool) (As : list (list Z)) : list Z :=
  match xs with
  | [] => hd [] As
  | x :: xs =>
      let l := tree_val xs (firstn (length As / 2) As) in
      let r := tree_val xs (skipn (length As / 2) As) in
      padded (Nat.max (length l) (length r)) (wsel x l r)
  end.
Fixpoint tree_aux (xs : list bool) (As : list (list Z)) : list Z :=
  match xs with
  | [] => []
  | x :: xs' =>
      tree_aux xs' (firstn (length As / 2) As) ++ tree_aux xs' (skipn (length As / 2) As) ++ tree_val xs As
  end.

Lemma list_max_app_nat l1 l2 : list_max (l1 ++ l2) = Nat.max (list_max l1) (list_max l2).
Proof. apply list_max_app. Qed.
Lemma tree_val_padded xs : forall As, length As = (2 ^ length xs)%nat ->
  tree_val xs As = padded (list_max (map (@length Z) As)) (nth (tree_index xs) As []) /\
  length (tree_val xs As) = list_max (map (@length Z) As).
Proof.
  induction xs as [|x xs IH]; intros As HL.
  - destruct As as [|A [|? ?]]; try discriminate. cbn [map list_max fold_right tree_val tree_index hd nth].
    rewrite Nat.max_0_r, padded_same. auto.
  - cbn [tree_val tree_index]. cbn [length Nat.pow] in HL.
    assert (Hh : (length As / 2 = 2 ^ length xs)%nat).
    { replace (length As) with ((2 ^ length xs) * 2)%nat by lia. apply Nat.div_mul. lia. }
    set (h := (length As / 2)%nat) in *. pose proof (tree_index_lt xs) as HT.
    destruct (IH (firstn h As)) as [L1 L2]; [rewrite firstn_length; lia|].
    destruct (IH (skipn h As)) as [R1 R2]; [rewrite skipn_length; lia|].
    assert (HM : list_max (map (@length Z) As) = Nat.max (list_max (map (@length Z) (firstn h As))) (list_max (map (@length Z) (skipn h As)))).
    { rewrite <- list_max_app, <- map_app, firstn_skipn. reflexivity. }
    rewrite L2, R2, <- HM.
    assert (K : forall l i, (i < length l)%nat -> (length (nth i l []) <= list_max (map (@length Z) l))%nat).
    { intros l i Hi. pose proof (proj1 (list_max_le (map (@length Z) l) _) (Nat.le_refl _)) as HF.
      rewrite Forall_forall in HF. apply HF. apply in_map, nth_In, Hi. }
    assert (Q : padded (list_max (map (@length Z) As)) (wsel x (tree_val xs (firstn h As)) (tree_val xs (skipn h As))) =
                padded (list_max (map (@length Z) As)) (nth ((if x then 2 ^ length xs else 0) + tree_index xs) As [])).
    { destruct x; cbn [wsel].
      - rewrite R1, padded_padded; [|apply K; rewrite skipn_length; lia|lia]. rewrite nth_skip, Hh. reflexivity.
      - rewrite L1, padded_padded; [|apply K; rewrite firstn_length; lia|lia]. rewrite nth_first by lia. reflexivity. }
    split; [exact Q|]. rewrite padded_length; auto. destruct x; cbn [wsel]; lia.
Qed.

Definition tree_in rho md w (i : bignat) (A : list Z) : Prop :=
  is_bn rho md i A /\ in_word i A /\ limb_width (bparams i) = w /\ (1 <= length A)%nat /\ Forall (fun v => 0 <= v < 2 ^ Z.of_nat w) A.

Lemma mux_tree_awp rho (one : rho ONE = 1) md w : (w < NUM_BITS)%nat -> forall bits xs inputs As,
  Forall2 (fun b x => wire_bit rho (b_lc b) x /\ (md = Honest -> b_val b = Some x)) bits xs ->
  Forall2 (tree_in rho md w) inputs As -> length inputs = (2 ^ length bits)%nat ->
  awp md rho (mux_tree bits inputs) (tree_aux xs As) (fun out => tree_in rho md w out (tree_val xs As)).
Proof.
  intros HN. induction bits as [|b bits IH]; intros xs inputs As Hx Hi HL.
  - inversion Hx; subst. destruct inputs as [|i [|? ?]]; try discriminate.
    inversion Hi as [|? A ? ? H1 H2]; subst. inversion H2; subst. cbn [mux_tree tree_aux tree_val hd]. astep. exact H1.
  - inversion Hx as [|? x ? xs' [Hb Hv] Hxs]; subst. cbn [mux_tree tree_aux].
    pose proof (Forall2_length _ _ _ Hi) as HLA. cbn [length Nat.pow] in HL.
    assert (Hh : (length inputs / 2 = 2 ^ length bits)%nat).
    { replace (length inputs) with ((2 ^ length bits) * 2)%nat by lia. apply Nat.div_mul. lia. }
    assert (He : (length inputs mod 2 = 0)%nat).
    { replace (length inputs) with ((2 ^ length bits) * 2)%nat by lia. apply Nat.mod_mul. lia. }
    rewrite (proj2 (Nat.eqb_eq _ _) He). cbn [negb]. rewrite <- HLA. set (h := (length inputs / 2)%nat) in *.
    assert (HF : Forall2 (tree_in rho md w) (firstn h inputs) (firstn h As) /\ Forall2 (tree_in rho md w) (skipn h inputs) (skipn h As)).
    { clearbody h. clear -Hi. revert h. induction Hi; intros h; [destruct h; simpl; auto|].
      destruct h; cbn [firstn skipn]; [auto|]. destruct (IHHi h). split; auto. }
    destruct HF as [HF1 HF2].
    apply awp_bind. astep. eapply awp_mono; [apply (IH xs' _ _ Hxs HF1); rewrite firstn_length; lia|]. cbv beta. intros l (L1 & L2 & L3 & L4 & L5).
    apply awp_bind. astep. eapply awp_mono; [apply (IH xs' _ _ Hxs HF2); rewrite skipn_length; lia|]. cbv beta. intros r (R1 & R2 & R3 & R4 & R5).
    astep. cbn [tree_val]. rewrite <- HLA. fold h.
    eapply awp_mono; [apply (mux_awp rho md b x l r _ _ Hb Hv L1 R1); [congruence|]|].
    + intros _. rewrite L3. split; [lia|]. split; auto. now destruct x.
    + cbv beta zeta. rewrite L3. intros out [O1 O2]. split; auto.
      assert (HR : Forall (fun v => 0 <= v < 2 ^ Z.of_nat w) (padded (Nat.max (length (tree_val xs' (firstn h As))) (length (tree_val xs' (skipn h As))))
         (wsel x (tree_val xs' (firstn h As)) (tree_val xs' (skipn h As))))).
      { apply padded_Forall; [pose proof (pow2_pos w); lia|]. now destruct x. }
      split; [eapply range_in_word; [exact O2|exact HR]|]. split; [rewrite O2; reflexivity|]. split; auto.
      rewrite padded_length; [lia|destruct x; cbn [wsel]; lia].
Qed.

Lemma top_mux_tree_complete bits xs inputs As w s :
  good s -> Forall2 (bit_at s) bits xs -> Forall2 (bignat_at s) inputs As ->
  length inputs = (2 ^ length bits)%nat -> (w < NUM_BITS)%nat ->
  Forall (fun i => limb_width (bparams i) = w) inputs ->
  Forall (fun A => A <> [] /\ Forall (fun v => v < 2 ^ Z.of_nat w) A) As ->
  exists out s', run true (mux_tree bits inputs) s = (Ok out, s') /\ good s' /\ limb_width (bparams out) = w /\
    bignat_at s' out (padded (list_max (map (@length Z) As)) (nth (Z.to_nat (bits_value (rev xs))) As [])).
Proof.
  intros G Hb Hi HL HN Hw HA.
  assert (HLx : length As = (2 ^ length xs)%nat) by (rewrite <- (Forall2_length _ _ _ Hi), HL, (Forall2_length _ _ _ Hb); reflexivity).
  destruct (honest_run (mux_tree bits inputs) s (tree_aux xs As) (fun rho out => tree_in rho Honest w out (tree_val xs As)) G) as (out & s' & Hr & Hg & _ & HQ).
  { intros rho Hag one. apply mux_tree_awp; auto.
    - clear -Hb Hag one W. induction Hb as [|b x bits xs H Hb IH]; constructor; auto. split; [apply wire_bit_feval; apply H; auto|intros _; apply H].
    - clear -Hi Hag one Hw HA W. revert Hw HA. induction Hi as [|i A inputs As H Hi IH]; intros Hw HA; constructor.
      + inversion Hw; subst. inversion HA as [|? ? [A1 A2]]; subst. destruct (bignat_at_is _ _ _ _ H Hag one) as [I0 I1].
        split; auto. split; auto. split; auto. split; [destruct A; [congruence|simpl; lia]|]. eapply bignat_at_range; eauto.
      + inversion Hw; inversion HA; subst; auto. }
  destruct (HQ _ (agree_asg s')) as (Q1 & Q2 & Q3 & Q4 & Q5).
  rewrite <- tree_index_bits, Nat2Z.id, <- (proj1 (tree_val_padded xs As HLx)).
  exists out, s'. split; auto. split; auto. split; auto. apply is_bignat_at; auto. intros rho Hrho. apply (HQ _ Hrho).
Qed.

(** ** assert_equal, inputize, as_nums *)
Lemma eq_con rho x y : csat rho (R1 lc_zero lc_zero (lc_sub x y)) <-> feval rho x = feval rho y.
Proof.
  rewrite csat_R1, feval_eq. lcs. rewrite Z.mul_0_l. rewrite <- (eqp_sub_0 (lc_eval rho x)). split; intros H; now symmetry.
Qed.
Lemma sat_push_con rho nm c s : sat rho (push_con nm c s) <-> csat rho c /\ sat rho s.
Proof. unfold sat, push_con. cbn [st_cons]. rewrite Forall_cons_iff. tauto. Qed.

Lemma top_assert_equal_iff wit a b s : length (limbs a) = length (limbs b) ->
  exists s', run wit (assert_equal a b) s = (Ok tt, s') /\ forall rho, sat rho s' <->
    sat rho s /\ wires rho (limbs a) = wires rho (limbs b).
Proof.
  intros HL. unfold assert_equal. rewrite HL, Nat.eqb_refl. cbn [negb]. rewrite <- HL.
  generalize 0%nat as k. revert HL s. generalize (limbs b) as lb. generalize (limbs a) as la.
  induction la as [|l la IH]; intros [|l' lb] HL s k; try discriminate HL.
  - exists s. cbn. split; auto. intros. tauto.
  - cbn [length seq combine iterM fst snd]. cbn [enforce bind run].
    destruct (IH lb ltac:(simpl in HL; lia) (push_con (Nmi ""%string k ""%string) (R1 lc_zero lc_zero (lc_sub l' l)) s) (S k)) as (s' & Hr & HQ).
    exists s'. split; auto. intros rho. rewrite HQ, sat_push_con, eq_con. unfold wires. cbn [map]. split.
    + intros [[H1 H2] H3]. split; auto. congruence.
    + intros [H1 H2]. injection H2 as H2 H3. auto.
Qed.
Lemma top_assert_equal_error wit a b s : length (limbs a) <> length (limbs b) ->
  run wit (assert_equal a b) s = (Err Unsatisfiable, s).
Proof. intros H. unfold assert_equal. rewrite (proj2 (Nat.eqb_neq _ _) H). reflexivity. Qed.

Lemma inputize_gen (nm1 : nat -> name) nm2 nm3 (vals : nat -> res Z) wit ls : forall k s s',
  run wit (iterM (fun p => ns (nm1 (fst p)) (let! (x, _) := alloc_input nm2 (vals (fst p)) in
      enforce nm3 lc_zero lc_zero (lc_sub (lc_var x) (snd p)))) (combine (seq k (length ls)) ls)) s = (Ok tt, s') ->
  length (st_in s') = (length (st_in s) + length ls)%nat /\ st_aux s' = st_aux s /\
  (wit = true -> exists vs, map vals (seq k (length ls)) = map (@Ok Z) vs /\ st_in s' = st_in s ++ vs) /\
  (forall rho, sat rho s' <-> sat rho s /\ forall i, (i < length ls)%nat ->
     feval rho (lc_var (VIn (length (st_in s) + i))) = feval rho (nth i ls lc_zero)).
Proof.
  induction ls as [|l ls IH]; intros k s s' Hr.
  - cbn in Hr. injection Hr as <-. split; [simpl; lia|]. split; auto. split; [intros _; exists []; now rewrite app_nil_r|].
    intros rho. split; [intros H; split; auto; intros i Hi; simpl in Hi; lia|tauto].
  - cbn [length seq combine iterM fst snd] in Hr. unfold ns at 1 in Hr. cbn [alloc_input bind enforce run] in Hr.
    assert (K : exists v, (wit = true -> vals k = Ok v) /\
      let s1 := pop_ns (push_con nm3 (R1 lc_zero lc_zero (lc_sub (lc_var (VIn (length (st_in s)))) l)) (push_var true nm2 v (push_ns (nm1 k) s))) in
      run wit (iterM (fun p => ns (nm1 (fst p)) (let! (x, _) := alloc_input nm2 (vals (fst p)) in
        enforce nm3 lc_zero lc_zero (lc_sub (lc_var x) (snd p)))) (combine (seq (S k) (length ls)) ls)) s1 = (Ok tt, s')).
    { destruct wit; [destruct (vals k) as [v| |]; try discriminate|]; eexists; (split; [|exact Hr]); auto; discriminate. }
    clear Hr. destruct K as (v & Hv & Hr). cbv zeta in Hr.
    destruct (IH _ _ _ Hr) as (I1 & I2 & I3 & I4). cbn [pop_ns push_con push_var push_ns st_in st_aux] in I1, I2, I3, I4.
    rewrite app_length in I1. cbn [length] in *. split; [lia|]. split; [exact I2|]. split.
    + intros Hw. destruct (I3 Hw) as (vs & V1 & V2). exists (v :: vs). cbn [seq map]. rewrite (Hv Hw), V1. split; auto.
      rewrite V2, <- app_assoc. reflexivity.
    + intros rho. rewrite I4.
      assert (P : sat rho (pop_ns (push_con nm3 (R1 lc_zero lc_zero (lc_sub (lc_var (VIn (length (st_in s)))) l)) (push_var true nm2 v (push_ns (nm1 k) s)))) <->
        feval rho (lc_var (VIn (length (st_in s)))) = feval rho l /\ sat rho s).
      { rewrite <- eq_con. unfold sat at 1. cbn [pop_ns push_con push_var push_ns st_cons]. rewrite Forall_cons_iff. unfold sat. tauto. }
      unfold pop_ns, push_con, push_var, push_ns in *. cbn [st_in st_aux st_cons st_path st_names add_name] in *. rewrite P. clear P. rewrite app_length. cbn [length]. split.
      * intros [[H1 H2] H3]. split; auto. intros [|i] Hi; cbn [nth]; [now rewrite Nat.add_0_r|].
        rewrite <- H3 by lia. do 3 f_equal. lia.
      * intros [H1 H2]. split; [split; auto|].
        { specialize (H2 0%nat ltac:(lia)). now rewrite Nat.add_0_r in H2. }
        intros i Hi. specialize (H2 (S i) ltac:(lia)). cbn [nth] in H2. rewrite <- H2. do 3 f_equal. lia.
Qed.
Lemma inputize_total (nm1 : nat -> name) nm2 nm3 (vals : nat -> res Z) wit ls : forall k s,
  (wit = true -> forall i, (i < length ls)%nat -> exists v, vals (k + i)%nat = Ok v) ->
  exists s', run wit (iterM (fun p => ns (nm1 (fst p)) (let! (x, _) := alloc_input nm2 (vals (fst p)) in
      enforce nm3 lc_zero lc_zero (lc_sub (lc_var x) (snd p)))) (combine (seq k (length ls)) ls)) s = (Ok tt, s').
Proof.
  induction ls as [|l ls IH]; intros k s H; [exists s; reflexivity|].
  cbn [length seq combine iterM fst snd]. unfold ns at 1. cbn [alloc_input bind enforce run].
  assert (H' : wit = true -> forall i, (i < length ls)%nat -> exists v, vals (S k + i)%nat = Ok v).
  { intros Hw i Hi. destruct (H Hw (S i)) as [v Hv]; [simpl; lia|]. exists v. rewrite <- Hv. f_equal. lia. }
  destruct wit; [|apply IH; auto]. destruct (H eq_refl 0%nat) as [v Hv]; [simpl; lia|]. rewrite Nat.add_0_r in Hv. rewrite Hv. apply IH; auto.
Qed.

(** Both ways of making a number public. *)
Definition inputizes (m : bignat -> prog unit) : Prop := m = gadget_inputize \/ m = bn_inputize.

Local Open Scope string_scope.
Local Open Scope list_scope.
Local Open Scope Z_scope.
Definition limb_at (b : bignat) (i : nat) : res Z := let? vs := grab (limb_values b) in idx vs i.
Lemma inputizes_form m b : inputizes m -> exists nm1 nm2 nm3,
  m b = iterM (fun p => ns (nm1 (fst p)) (let! (x, _) := alloc_input nm2 (limb_at b (fst p)) in
      enforce nm3 lc_zero lc_zero (lc_sub (lc_var x) (snd p)))) (combine (seq 0 (length (limbs b))) (limbs b)).
Proof.
  intros [-> | ->].
  - exists (fun i => Nmi "" i ""), (Nm "in"), (Nm "eq"). reflexivity.
  - exists (fun i => Nmi "limb " i ""), (Nm "alloc"), (Nm "eq"). reflexivity.
Qed.

Lemma top_inputize_sound m wit b s s' : m = gadget_inputize \/ m = bn_inputize -> run wit (m b) s = (Ok tt, s') ->
  length (st_in s') = (length (st_in s) + length (limbs b))%nat /\ st_aux s' = st_aux s /\
  forall rho, sat rho s' <-> sat rho s /\
    map (fun i => feval rho (lc_var (VIn i))) (seq (length (st_in s)) (length (limbs b))) = wires rho (limbs b).
Proof.
  intros Hm Hr.
  assert (K : length (st_in s') = (length (st_in s) + length (limbs b))%nat /\ st_aux s' = st_aux s /\
   (forall rho, sat rho s' <-> sat rho s /\ forall i, (i < length (limbs b))%nat ->
     feval rho (lc_var (VIn (length (st_in s) + i))) = feval rho (nth i (limbs b) lc_zero))).
  { destruct (inputizes_form m b Hm) as (n1 & n2 & n3 & HF). rewrite HF in Hr. apply (inputize_gen n1 n2 n3 (limb_at b)) in Hr. tauto. }
  destruct K as (K1 & K2 & K3). split; auto. split; auto. intros rho. rewrite K3.
  assert (L : (forall i, (i < length (limbs b))%nat -> feval rho (lc_var (VIn (length (st_in s) + i))) = feval rho (nth i (limbs b) lc_zero)) <->
    map (fun i => feval rho (lc_var (VIn i))) (seq (length (st_in s)) (length (limbs b))) = wires rho (limbs b)).
  { split.
    - intros H. apply (nth_ext _ _ 0 0); unfold wires; rewrite !map_length, ?seq_length; auto.
      intros i Hi. rewrite (nth_indep _ 0 (feval rho (lc_var (VIn 0)))) by (rewrite map_length, seq_length; lia).
      rewrite (map_nth (fun i => feval rho (lc_var (VIn i)))), seq_nth by lia.
      fold (wires rho (limbs b)). rewrite nth_wires. auto.
    - intros H i Hi. rewrite <- nth_wires, <- H. rewrite (nth_indep _ 0 (feval rho (lc_var (VIn 0)))) by (rewrite map_length, seq_length; lia).
      rewrite (map_nth (fun i => feval rho (lc_var (VIn i)))), seq_nth by lia. reflexivity. }
  rewrite L. tauto.
Qed.
Lemma top_inputize_complete m b vs s : m = gadget_inputize \/ m = bn_inputize -> good s -> bignat_at s b vs ->
  exists s', run true (m b) s = (Ok tt, s') /\ good s' /\ st_in s' = st_in s ++ vs.
Proof.
  intros Hm G Hb. destruct Hb as (B2 & B3 & _ & _ & B5).
  assert (HL : length (limbs b) = length vs) by (eapply Forall2_length; eauto).
  assert (HV : forall i, (i < length (limbs b))%nat -> limb_at b i = Ok (nth i vs 0)).
  { intros i Hi. unfold limb_at. rewrite B2. cbn [grab rbind]. unfold idx. rewrite (nth_error_nth' vs 0) by lia. reflexivity. }
  assert (K : exists s', run true (m b) s = (Ok tt, s')).
  { destruct (inputizes_form m b Hm) as (n1 & n2 & n3 & ->). apply (inputize_total n1 n2 n3 (limb_at b)). intros _ i Hi. rewrite Nat.add_0_l, HV by auto. eauto. }
  destruct K as [s' Hr]. exists s'. split; auto.
  destruct (top_inputize_sound m true b s s' Hm Hr) as (S1 & S2 & S3).
  assert (HI : st_in s' = st_in s ++ vs).
  { assert (K : exists ws, map (limb_at b) (seq 0 (length (limbs b))) = map (@Ok Z) ws /\ st_in s' = st_in s ++ ws).
    { destruct (inputizes_form m b Hm) as (n1 & n2 & n3 & HF). rewrite HF in Hr. apply (inputize_gen n1 n2 n3 (limb_at b)) in Hr. destruct Hr as (_ & _ & H & _). exact (H eq_refl). }
    destruct K as (ws & W1 & ->). f_equal.
    assert (HLw : length ws = length vs) by (apply (f_equal (@length _)) in W1; rewrite !map_length, seq_length in W1; lia).
    apply (nth_ext _ _ 0 0); auto. intros i Hi.
    apply (f_equal (fun l => nth i l (Ok 0))) in W1. rewrite (map_nth (@Ok Z)) in W1.
    rewrite (nth_indep _ (Ok 0) (limb_at b 0%nat)) in W1 by (rewrite map_length, seq_length; lia).
    rewrite (map_nth (limb_at b)), seq_nth, Nat.add_0_l, HV in W1 by lia. congruence. }
  split; auto. intros rho [A1 A2]. apply S3. rewrite S2 in A2. rewrite HI in A1.
  assert (Ha : agree s rho).
  { split; auto. intros n Hn. rewrite A1 by (rewrite app_length; lia). apply app_nth1; auto. }
  pose proof (G _ Ha) as Hs. split; auto.
  apply (nth_ext _ _ 0 0); unfold wires; rewrite !map_length, ?seq_length; auto.
  intros i Hi. rewrite (nth_indep _ 0 (feval rho (lc_var (VIn 0)))) by (rewrite map_length, seq_length; lia).
  rewrite (map_nth (fun i => feval rho (lc_var (VIn i)))), seq_nth by lia. fold (wires rho (limbs b)). rewrite nth_wires.
  rewrite (Forall2_nth _ _ _ B3 i lc_zero 0 ltac:(lia) rho Ha (proj1 Hs)).
  apply feval_eqp; [|lcs; rewrite A1, app_nth2 by (rewrite ?app_length; lia); replace (length (st_in s) + i - length (st_in s))%nat with i by lia; reflexivity].
  rewrite Forall_forall in B5. apply B5, nth_In. lia.
Qed.

Lemma top_as_nums_sound wit b s l s' rho : run wit (as_nums b) s = (Ok l, s') -> sat rho s' ->
  map (fun n => feval rho (lc_var (an_var n))) l = wires rho (limbs b).
Proof.
  intros Hr Hs.
  assert (K : swp Any rho (as_nums b) (fun l => Forall2 (fun p n => feval rho (lc_var (an_var n)) = feval rho (snd p)) (combine (seq 0 (length (limbs b))) (limbs b)) l)).
  { unfold as_nums. apply (swp_mapM _ _ _ (fun (p : nat * LC) n => feval rho (lc_var (an_var n)) = feval rho (snd p))); auto.
    intros [i w] _. cbn [fst snd]. do 2 sstep. apply an_alloc_swp. intros x v _. cbn [an_var]. do 2 sstep. intros H.
    sstep. rewrite feval_eq. symmetry. apply (proj1 (eqp_sub_0 _ _)). lcs_in H. lcs. exact H. }
  pose proof (swp_run_any _ _ _ _ _ _ _ Hr Hs K) as H. clear -H. revert H. generalize 0%nat as k. revert l.
  induction (limbs b) as [|w ls IH]; intros l k H; cbn [length seq combine] in H; inversion H; subst; [reflexivity|].
  unfold wires in *. cbn [map]. f_equal; eauto.
Qed.
Lemma top_as_nums_complete b vs s : good s -> bignat_at s b vs ->
  exists l s', run true (as_nums b) s = (Ok l, s') /\ good s' /\ Forall2 (an_at s') l vs.
Proof.
  intros G (B2 & B3 & _ & _ & B5).
  assert (HL : length (limbs b) = length vs) by (eapply Forall2_length; eauto).
  destruct (hwp_run (as_nums b) s (fun rho l => Forall2 (fun (p : nat * LC) n => is_an rho n (nth (fst p) vs 0)) (combine (seq 0 (length (limbs b))) (limbs b)) l) G) as (l & s' & Hr & Hg & _ & HQ).
  { intros rho Ha one. unfold as_nums. apply (hwp_mapM _ _ (fun (p : nat * LC) n => is_an rho n (nth (fst p) vs 0))); auto.
    intros [i w] Hi. cbn [fst snd].
    assert (Hw : (i < length vs)%nat /\ w = nth i (limbs b) lc_zero).
    { apply (In_nth _ _ (0%nat, lc_zero)) in Hi. destruct Hi as (j & Hj & Hn). rewrite combine_length, seq_length, Nat.min_id in Hj.
      rewrite combine_nth in Hn by (now rewrite seq_length). rewrite seq_nth in Hn by lia. injection Hn as <- <-. split; [lia|reflexivity]. }
    destruct Hw as [Hi' ->]. rewrite B2. cbn [grab rbind]. unfold idx. rewrite (nth_error_nth' vs 0) by lia. cbn [unwrap].
    do 2 hstep. eapply an_alloc_hwp; [reflexivity|]. intros x Hx. cbn [an_var]. do 2 hstep.
    - lcs. rewrite Hx. rewrite (carries_eqp _ _ _ _ (Forall2_nth _ _ _ B3 i lc_zero 0 ltac:(lia)) Ha one). ering.
    - hstep. split; auto. split; [|cbn [an_var]; rewrite Hx; reflexivity]. rewrite Forall_forall in B5. apply B5, nth_In. lia. }
  exists l, s'. split; auto. split; auto. pose proof (HQ _ (agree_asg s')) as H0.
  pose proof (Forall2_length _ _ _ H0) as HLl. rewrite combine_length, seq_length, Nat.min_id in HLl.
  apply (nth_Forall2 _ (mkAN None ONE) 0); [lia|]. intros i Hi.
  assert (K : forall rho, agree s' rho -> is_an rho (nth i l (mkAN None ONE)) (nth i vs 0)).
  { intros rho Ha. pose proof (Forall2_nth _ _ _ (HQ _ Ha) i (0%nat, lc_zero) (mkAN None ONE)) as H.
    rewrite combine_length, seq_length, Nat.min_id in H. specialize (H ltac:(lia)).
    rewrite combine_nth in H by (now rewrite seq_length). rewrite seq_nth in H by lia. exact H. }
  destruct (K _ (agree_asg s')) as (K1 & K2 & _). split; auto. split; auto.
  intros rho Ha _. apply feval_eqp; auto. lcs. apply (K _ Ha).
Qed.
End Top.

(** ** The lazy cell *)
Section Lazy.
Context {T : Type}.
Implicit Types c : lazy_cell T.

Definition lazy_inv (f : option T) c : Prop :=
  match lz_inner c with
  | Unforced g => g = f /\ lz_calls c = 0%nat /\ lz_refs c = 0%nat
  | Forced t => f = Some t /\ (lz_calls c <= 1)%nat
  | Empty => f = None /\ (lz_calls c <= 1)%nat /\ lz_refs c = 0%nat
  end.
Lemma lazy_inv_borrow f c : lazy_inv f c ->
  lazy_inv f (snd (lazy_borrow c)) /\ (forall t, fst (lazy_borrow c) = Ok t -> f = Some t).
Proof.
  unfold lazy_inv, lazy_borrow, lazy_force. intros H.
  destruct (0 <? lz_refs c)%nat; [split; [exact H|discriminate]|].
  destruct (lz_inner c) as [g|t|] eqn:Ei.
  - destruct H as (-> & H1 & H2). destruct f as [t|]; cbn; rewrite ?H1, ?H2; split; try (intros; congruence); auto.
  - cbn. rewrite Ei. cbn. destruct H as [-> H]. split; auto. intros; congruence.
  - cbn. rewrite Ei. split; auto. discriminate.
Qed.
Lemma lazy_inv_release f c : lazy_inv f c -> lazy_inv f (lazy_release c).
Proof. unfold lazy_inv, lazy_release. cbn. destruct (lz_inner c); intuition; match goal with H : lz_refs c = _ |- _ => now rewrite H end. Qed.
Lemma lazy_inv_history f ops : forall c rs c', lazy_inv f c -> lazy_history c ops = (rs, c') ->
  lazy_inv f c' /\ forall t, In (Ok t) rs -> f = Some t.
Proof.
  induction ops as [|[] ops IH]; intros c rs c' H Hh; cbn [lazy_history] in Hh.
  - injection Hh as <- <-. split; auto. intros t [].
  - destruct (lazy_inv_borrow f c H) as [B1 B2]. destruct (lazy_borrow c) as [r c1]. cbn [fst snd] in *.
    destruct (lazy_history c1 ops) as [rs' c2] eqn:E2. injection Hh as <- <-. destruct (IH _ _ _ B1 E2) as [I1 I2].
    split; auto. intros t [->|Ht]; auto.
  - eapply IH; [|exact Hh]. now apply lazy_inv_release.
Qed.

Lemma lazy_calls_mono ops : forall c rs c', lazy_history c ops = (rs, c') -> (lz_calls c <= lz_calls c')%nat.
Proof.
  induction ops as [|[] ops IH]; intros c rs c' Hh; cbn [lazy_history] in Hh.
  - injection Hh as <- <-. auto.
  - destruct (lazy_borrow c) as [r c1] eqn:E1. destruct (lazy_history c1 ops) as [rs' c2] eqn:E2. injection Hh as <- <-.
    apply IH in E2. assert ((lz_calls c <= lz_calls c1)%nat); [|lia]. revert E1. unfold lazy_borrow, lazy_force.
    destruct (0 <? lz_refs c)%nat; [intros H; injection H as _ <-; auto|].
    destruct (lz_inner c) as [[t|]|t|] eqn:Ei; cbn; rewrite ?Ei; intros H; injection H as _ <-; cbn; auto.
  - apply IH in Hh. exact Hh.
Qed.

Lemma top_lazy_once f ops rs c : lazy_history (lazy_new f) ops = (rs, c) ->
  (lz_calls c <= 1)%nat /\ (In LBorrow ops -> lz_calls c = 1%nat) /\ (forall t, In (Ok t) rs -> f = Some t).
Proof.
  intros H. assert (I0 : lazy_inv f (lazy_new f)) by (cbn; auto).
  destruct (lazy_inv_history f ops _ _ _ I0 H) as [I1 I2].
  assert (L1 : (lz_calls c <= 1)%nat) by (unfold lazy_inv in I1; destruct (lz_inner c); lia).
  split; auto. split; auto. intros HB.
  assert ((1 <= lz_calls c)%nat); [|lia]. clear I1 I2 L1 I0.
  revert rs c H. induction ops as [|[] ops IH]; intros rs c H; [destruct HB| |].
  - cbn [lazy_history] in H. destruct (lazy_borrow (lazy_new f)) as [r c1] eqn:E1.
    destruct (lazy_history c1 ops) as [rs' c2] eqn:E2. injection H as _ <-. apply lazy_calls_mono in E2.
    assert (lz_calls c1 = 1%nat); [|lia]. destruct f; cbn in E1; injection E1 as _ <-; reflexivity.
  - destruct HB as [HB|HB]; [discriminate|]. cbn [lazy_history] in H. eapply IH; eauto.
Qed.
Lemma lazy_refs_borrow c : (0 < lz_refs c)%nat -> lazy_borrow c = (Panic, c).
Proof. intros H. unfold lazy_borrow, lazy_force. rewrite (proj2 (Nat.ltb_lt _ _) H). reflexivity. Qed.
Lemma top_lazy_borrow_free (f : option T) ops rs c t : lazy_history (lazy_new f) ops = (rs, c) -> f = Some t ->
  lz_refs c = 0%nat -> fst (lazy_borrow c) = Ok t.
Proof.
  intros H -> H0. assert (I0 : lazy_inv (Some t) (lazy_new (Some t))) by (cbn; auto).
  destruct (lazy_inv_history _ ops _ _ _ I0 H) as [I1 _]. unfold lazy_borrow, lazy_force, lazy_inv in *. rewrite H0. cbn [Nat.ltb Nat.leb].
  destruct (lz_inner c) as [g|t'|] eqn:Ei.
  - destruct I1 as [-> _]. reflexivity.
  - cbn. rewrite Ei. cbn. destruct I1 as [I1 _]. congruence.
  - destruct I1; discriminate.
Qed.
Lemma lazy_expected_history (f : option T) ops : forall c, lazy_inv f c -> fst (lazy_history c ops) = lazy_expected f (lz_refs c) ops.
Proof.
  induction ops as [|[] ops IH]; intros c H; cbn [lazy_history lazy_expected]; auto.
  - pose proof (proj1 (lazy_inv_borrow f c H)) as B. unfold lazy_borrow, lazy_force in *. revert B.
    destruct (lz_refs c) as [|n] eqn:Er; cbn [Nat.ltb Nat.leb].
    + destruct (lz_inner c) as [g|t|] eqn:Ei; unfold lazy_inv in H; rewrite Ei in H; cbn [lz_inner]; rewrite ?Ei.
      * destruct H as (-> & _). destruct f as [t|]; cbn [snd lz_inner lz_refs lz_calls]; intros B;
          specialize (IH _ B); cbn [lz_refs] in IH; destruct (lazy_history _ ops); cbn [fst] in *; now rewrite IH.
      * destruct H as (-> & _). cbn [snd]. intros B. specialize (IH _ B). cbn [lz_refs] in IH.
        destruct (lazy_history _ ops). cbn [fst] in *. rewrite IH, ?Er. reflexivity.
      * destruct H as (-> & _). cbn [snd]. intros B. specialize (IH _ B). rewrite Er in IH.
        destruct (lazy_history _ ops). cbn [fst] in *. now rewrite IH.
    + cbn [snd]. intros B. specialize (IH _ B). rewrite Er in IH. destruct (lazy_history _ ops). cbn [fst] in *.
      now rewrite IH.
  - rewrite IH by now apply lazy_inv_release. reflexivity.
Qed.
Lemma top_lazy_expected (f : option T) ops : fst (lazy_history (lazy_new f) ops) = lazy_expected f 0 ops.
Proof. apply (lazy_expected_history f ops (lazy_new f)). cbn. auto. Qed.
Lemma top_lazy_expected_from (t : T) ops : fst (lazy_history (lazy_from t) ops) = lazy_expected (Some t) 0 ops.
Proof. apply (lazy_expected_history (Some t) ops (lazy_from t)). cbn. auto. Qed.
Lemma top_lazy_panic ops rs c r : lazy_history (lazy_new None) ops = (rs, c) -> In r rs -> r = Panic.
Proof.
  assert (K : forall ops c rs c', lazy_inv None c -> lazy_history c ops = (rs, c') -> forall r, In r rs -> r = Panic).
  { clear. induction ops as [|[] ops IH]; intros c rs c' H Hh r Hr; cbn [lazy_history] in Hh.
    - injection Hh as <- <-. destruct Hr.
    - destruct (lazy_inv_borrow None c H) as [B1 B2]. destruct (lazy_borrow c) as [r1 c1] eqn:E1. cbn [fst snd] in *.
      destruct (lazy_history c1 ops) as [rs' c2] eqn:E2. injection Hh as <- <-. destruct Hr as [<-|Hr]; [|eapply IH; eauto].
      destruct r1 as [t|e|]; auto; [discriminate (B2 t eq_refl)|].
      revert E1. unfold lazy_borrow, lazy_force. destruct (0 <? lz_refs c)%nat; [discriminate|].
      destruct (lz_inner c) as [[]|t|] eqn:Ei; cbn; rewrite ?Ei; discriminate.
    - eapply IH; [|exact Hh|exact Hr]. now apply lazy_inv_release. }
  intros H Hr. eapply K; eauto. cbn. auto.
Qed.
Lemma top_lazy_from t ops rs c : lazy_history (lazy_from t) ops = (rs, c) ->
  lz_calls c = 0%nat /\ (forall u, In (Ok u) rs -> u = t).
Proof.
  assert (K : forall ops c rs c', lz_inner c = Forced t -> lazy_history c ops = (rs, c') -> lz_calls c' = lz_calls c /\ (forall u, In (Ok u) rs -> u = t)).
  { clear. induction ops as [|[] ops IH]; intros c rs c' H Hh; cbn [lazy_history] in Hh.
    - injection Hh as <- <-. split; auto. intros u [].
    - destruct (lazy_borrow c) as [r c1] eqn:E1. destruct (lazy_history c1 ops) as [rs' c2] eqn:E2. injection Hh as <- <-.
      unfold lazy_borrow, lazy_force in E1. rewrite H in E1. destruct (0 <? lz_refs c)%nat.
      + injection E1 as <- <-. destruct (IH _ _ _ H E2). split; auto. intros u [Hu|Hu]; [discriminate|auto].
      + cbn in E1. rewrite H in E1. injection E1 as <- <-. destruct (fun K => IH _ _ _ K E2); [reflexivity|]. split; auto.
        intros u [Hu|Hu]; [congruence|auto].
    - destruct (IH (lazy_release c) _ _ H Hh). auto. }
  apply (K ops (lazy_from t) rs c eq_refl).
Qed.
End Lazy.
