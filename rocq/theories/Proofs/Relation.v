(** Which assignments extend to satisfying ones, for the gadgets that only have soundness and honest-run theorems elsewhere (C98). *)
From Coq Require Import ZArith Znumtheory Bool List Lia Setoid Morphisms ZifyBool ZifyNat.
From Verif.Model Require Import Base CS Bellpepper Util Poly Bignat Gadget.
From Verif.Spec Require Import Spec.
From Verif.Proofs Require Import Field Arith Convert Limbs Wp Lc BitNum PolyP BoolP BignatEq BignatAlloc Group Carry Regroup Mult MultC TopBits TopPoly TopBignat1 PureOps TopPure Owp Pwp
  TopBignat2 MuxP MedianP MinBits Ewp.
Import ListNotations.
Local Open Scope Z_scope.

Lemma seq_split n : forall k pre a post, seq k n = pre ++ a :: post -> a = (k + length pre)%nat /\ pre = seq k (length pre).
Proof.
  induction n as [|n IH]; intros k pre a post H; [destruct pre; discriminate H|]. cbn [seq] in H.
  destruct pre as [|x pre]; cbn [app length seq] in *.
  - injection H as <- _. split; [lia|reflexivity].
  - injection H as <- H. apply IH in H. destruct H as [-> H]. split; [lia|]. f_equal. exact H.
Qed.

Section Relation.
Context {E : Env} {W : Wf E}.

Lemma md_of_any wit : md_of wit <> Honest.
Proof. exact (md_of_not wit False). Qed.
Lemma rwp_lift {A} (r : res A) (Q : A -> Prop) : (forall a, r = Ok a -> Q a) -> rwp (lift r) Q.
Proof. destruct r; simpl; auto. Qed.
Lemma rwp_run {A} wit (m : prog A) : forall s (Q : A -> Prop) a s', run wit m s = (Ok a, s') -> rwp m Q -> Q a.
Proof.
  induction m as [a0|e| |inp nm w k IH|nm c k IH|nm k IH|k IH]; intros s Q a s' Hr H; simpl in Hr, H; try discriminate; eauto.
  - now injection Hr as <- <-.
  - destruct wit; [destruct w; try discriminate|]; eapply IH; eauto; apply H.
  - exact (IH _ _ _ _ Hr H).
  - exact (IH _ _ _ _ Hr H).
  - exact (IH _ _ _ _ Hr H).
Qed.

Section Rho.
Context (rho : assignment) (one : rho ONE = 1).
Lemma awp_rwp {A} md (m : prog A) : forall ys (P Q : A -> Prop), rwp m P -> awp md rho m ys Q -> awp md rho m ys (fun a => P a /\ Q a).
Proof.
  induction m; simpl; intros ys P Q H1 H2; try tauto; eauto.
  - destruct ys; [tauto|]. destruct H2. split; auto.
  - destruct H2; eauto.
Qed.
Lemma swp_both {A} md (m : prog A) : forall (P Q : A -> Prop), swp md rho m P -> swp md rho m Q -> swp md rho m (fun a => P a /\ Q a).
Proof. induction m; simpl; eauto. Qed.
Lemma swp_true {A} md (m : prog A) : swp md rho m (fun _ => True).
Proof. induction m; simpl; auto. Qed.
Lemma rwp_skip {A B} (m : prog A) (f : A -> prog B) (Q : B -> Prop) : (forall a, rwp (f a) Q) -> rwp (bind m f) Q.
Proof. intros H. apply rwp_bind. induction m; simpl; auto. Qed.

(** ** is_equal *)
Lemma equals_is md a b x y : md <> Honest -> eqp (rho (an_var a)) x -> eqp (rho (an_var b)) y -> canon x -> canon y ->
  awp md rho (equals a b) (eq_aux x y) (fun r => (exists c, r = BIs c) /\ wire_bool rho r (x =? y)).
Proof.
  intros Hmd Ha Hb Cx Cy. apply awp_rwp.
  - unfold equals. do 9 (apply rwp_skip; intros ?). simpl. eauto.
  - eapply awp_mono; [now apply equals_awp|]. cbv beta. tauto.
Qed.
Lemma and_is md a b x y : md <> Honest -> wire_bool rho (BIs a) x -> wire_bool rho (BIs b) y ->
  awp md rho (bool_and (BIs a) (BIs b)) [Z.b2z (x && y)] (fun r => (exists c, r = BIs c) /\ wire_bool rho r (x && y)).
Proof.
  intros Hmd Ha Hb. cbn [bool_and]. unfold ab_and. rewrite wire_is in Ha, Hb. apply awp_bind_all. apply awp_bind_all. astep; [contradiction|]. intros z o Hz _.
  apply awp_bind_nil. astep; [lcs; rewrite Ha, Hb, Hz, andb_mul; ering|]. astep. split; [reflexivity|]. split; [eauto|]. apply wire_is. cbn [ab_var]. now rewrite Hz.
Qed.
Definition same_below (xs ys : list Z) (n : nat) : bool := forallb (fun j => nth j xs 0 =? nth j ys 0) (seq 0 n).
Definition is_equal_aux (xs ys : list Z) (i : nat) : list Z :=
  [nth i xs 0] ++ [nth i ys 0] ++ eq_aux (nth i xs 0) (nth i ys 0) ++ (if (i =? 0)%nat then [] else [Z.b2z (same_below xs ys (S i))]).
Lemma same_below_S xs ys n : same_below xs ys (S n) = (nth n xs 0 =? nth n ys 0) && same_below xs ys n.
Proof. unfold same_below. rewrite seq_S, forallb_app. cbn [forallb Nat.add]. rewrite andb_true_r. apply andb_comm. Qed.
Lemma same_below_all xs ys : length xs = length ys -> (same_below xs ys (length xs) = true <-> xs = ys).
Proof.
  intros HL. unfold same_below. rewrite forallb_forall. split.
  - intros H. apply (nth_ext _ _ 0 0 HL). intros i Hi. apply Z.eqb_eq, H, in_seq. lia.
  - intros -> i _. apply Z.eqb_refl.
Qed.
Lemma is_equal_awp md a b xs ys : md <> Honest -> ev rho (limbs a) xs -> ev rho (limbs b) ys -> Forall canon xs -> Forall canon ys ->
  length xs = length ys -> limb_width (bparams a) = limb_width (bparams b) ->
  awp md rho (is_equal a b) (flat_map (is_equal_aux xs ys) (seq 0 (length xs))) (fun r => wire_bool rho r (same_below xs ys (length xs))).
Proof.
  intros Hmd Ha Hb Ca Cb HL HW. unfold is_equal. rewrite (ev_length _ _ _ Ha), (ev_length _ _ _ Hb), HL, Nat.eqb_refl. cbn [negb].
  apply awp_bind_nil. eapply awp_lift. { unfold width_agreement. rewrite HW, Nat.eqb_refl. reflexivity. }
  apply (awp_foldM _ _ _ _ (fun pre r => wire_bool rho r (same_below xs ys (length pre)) /\ (pre = [] -> r = BConst true) /\ (pre <> [] -> exists c, r = BIs c)) _ []).
  - split; [now apply wire_const|]. split; [auto|congruence].
  - intros pre i post r Hpre (Hr & H0 & H1). cbn [app] in Hpre. apply seq_split in Hpre as Hs. destruct Hs as [Hi Hp]. cbn [Nat.add] in Hi.
    assert (Hlt : (i < length ys)%nat).
    { assert (HI : In i (seq 0 (length ys))) by (rewrite Hpre; apply in_app_iff; right; left; auto). apply in_seq in HI. lia. }
    assert (Cx : canon (nth i xs 0)) by (rewrite Forall_forall in Ca; apply Ca, nth_In; lia).
    assert (Cy : canon (nth i ys 0)) by (rewrite Forall_forall in Cb; apply Cb, nth_In; lia).
    unfold is_equal_aux. apply awp_bind. astep. apply an_alloc_awp; [contradiction|]. intros sl vs Hsl _. cbn [an_var].
    apply awp_bind_nil. astep. { lcs. rewrite Hsl. apply (proj2 (eqp_sub_0 _ _)). now apply ev_nth. }
    apply awp_bind. astep. apply an_alloc_awp; [contradiction|]. intros ol vo Hol _. cbn [an_var].
    apply awp_bind_nil. astep. { lcs. rewrite Hol. apply (proj2 (eqp_sub_0 _ _)). now apply ev_nth. }
    apply awp_bind. astep. eapply awp_mono; [apply (equals_is md _ _ (nth i xs 0) (nth i ys 0)); auto; cbn [an_var]; [now rewrite Hsl|now rewrite Hol]|].
    cbv beta. intros e [[c ->] He]. astep.
    assert (HA : (pre ++ [i] = [] -> False)) by (destruct pre; discriminate).
    replace (length (pre ++ [i])) with (S i) by (rewrite app_length; cbn [length]; lia). 
    assert (HB : same_below xs ys (S i) = (nth i xs 0 =? nth i ys 0) && same_below xs ys (length pre)) by (rewrite same_below_S; f_equal; f_equal; exact Hi).
    rewrite HB. clear HB.
    destruct pre as [|z pre].
    + rewrite (H0 eq_refl) in *. cbn [length] in *. subst i. cbn [Nat.eqb bool_and]. astep.
      change (same_below xs ys 0) with true. rewrite andb_true_r. split; [exact He|]. split; [intros C; discriminate C|]. eauto.
    + destruct (H1 ltac:(discriminate)) as [d ->]. replace (i =? 0)%nat with false by (cbn [length] in Hi; lia).
      eapply awp_mono; [apply (and_is md c d (nth i xs 0 =? nth i ys 0) (same_below xs ys (length (z :: pre)))); auto|].
      cbv beta. intros r' [[d' ->] Hr']. split; [exact Hr'|]. split; [intros C; discriminate C|]. eauto.
  - intros r (Hr & _). cbn [app] in Hr. rewrite seq_length in Hr. exact Hr.
Qed.

(** ** as_nums *)
Lemma as_nums_awp md b xs : md <> Honest -> ev rho (limbs b) xs -> Forall canon xs ->
  awp md rho (as_nums b) xs (fun l => map (fun n => rho (an_var n)) l = xs).
Proof.
  intros Hmd Hb Cb. unfold as_nums. rewrite (combine_seq_map _ lc_zero), mapM_map. cbn [fst snd].
  rewrite (ev_length _ _ _ Hb). 
  replace xs with (flat_map (fun i => [nth i xs 0]) (seq 0 (length xs))) at 2.
  2:{ now rewrite flat_map_single, map_nth_seq. }
  apply (awp_mapM _ _ _ _ (fun i n => rho (an_var n) = nth i xs 0)).
  - intros i Hi. apply in_seq in Hi. apply awp_bind_all. astep. apply an_alloc_awp; [contradiction|]. intros x v Hx _. cbn [an_var].
    apply awp_bind_nil. astep. { lcs. rewrite Hx. apply (proj2 (eqp_sub_0 _ _)). now apply ev_nth. }
    astep. exact Hx.
  - intros l Hl. rewrite <- (map_nth_seq xs 0). clear -Hl. induction Hl as [|i n l ns H Hl IH]; [reflexivity|]. cbn [map]. now rewrite H, IH.
Qed.

(** ** enforce_full_bits *)
Lemma bit_constrain_awp md b v : wire_bit rho (b_lc b) v -> awp md rho (bit_constrain_value b v) [] (fun _ => True).
Proof.
  unfold bit_constrain_value, wire_bit. intros H. astep; [|exact I]. destruct v; cbn [Z.b2z] in H.
  - lcs. rewrite one, H. ering.
  - exact H.
Qed.
Definition bit_list (v : Z) (w : nat) : list bool := map (fun i => Z.testbit v (Z.of_nat i)) (seq 0 w).
Definition bit_wits (v : Z) (w : nat) : list Z := map (fun i => Z.b2z (Z.testbit v (Z.of_nat i))) (seq 0 w).
Lemma full_bits_pwp md b vs v : let w := limb_width (bparams b) in
  is_bn rho md b (vs ++ [v]) -> md <> Honest -> (w < NUM_BITS)%nat -> 2 ^ Z.of_nat (w - 1) <= v < 2 ^ Z.of_nat w ->
  pwp md rho (enforce_full_bits b) (bit_wits v w) (fun _ => True).
Proof.
  intros w (Hev & Hlv & _ & HC & _) Hmd Hw Hv. unfold enforce_full_bits. fold w. apply pwp_host. intros ov Hov. apply pwp_host. intros [lc rest] Hp.
  destruct (vec_pop (limbs b)) as [[l1 r1]|] eqn:Hl; [|discriminate]. injection Hp as <- <-. apply vec_pop_inv in Hl.
  rewrite Hl in Hev. apply Forall2_app_inv_l in Hev as (v1 & v2 & E1 & E2 & E3). inversion E2 as [|? z ? ? E4 E5]; subst. inversion E5; subst.
  apply app_inj_tail in E3 as [<- <-].
  rewrite <- (app_nil_r (bit_wits v w)). apply pwp_bind, pwp_ns. eapply pwp_mono; [apply awp_pwp, (num_decompose_awp rho one md _ w v)|].
  - exact E4.
  - pose proof (pow2_pos (w - 1)). lia.
  - lia.
  - cbn [n_val]. intros x ->. unfold lv_ok in Hlv. destruct (limb_values b) as [l|]; [|discriminate]. destruct Hlv as [_ Hlv].
    destruct (vec_pop l) as [[y r]|] eqn:Hl2; [|discriminate]. cbn [unwrap rbind] in Hov. injection Hov as <-. apply vec_pop_inv in Hl2. subst l.
    apply Forall_app in Hlv as [_ Hlv]. now inversion Hlv.
  - contradiction.
  - cbv beta. intros bv [[_ Hb] _]. apply pwp_host. intros bits Hbits. apply into_bits_lc in Hbits. apply pwp_host. intros [last init] Hq.
    destruct (vec_pop bits) as [[x y]|] eqn:Hpb; [|discriminate]. injection Hq as <- <-. apply vec_pop_inv in Hpb.
    apply (pwp_bind md rho _ _ _ [] []), pwp_ns. eapply pwp_mono; [apply awp_pwp, (bit_constrain_awp md)|].
    + rewrite <- Hbits, Hpb, map_app in Hb. apply Forall2_app_inv_l in Hb as (b1 & b2 & F1 & F2 & F3).
      inversion F2 as [|? z ? ? F4 F5]; subst. inversion F5; subst.
      pose proof (f_equal (@length _) F3) as FL. rewrite map_length, seq_length, app_length in FL. cbn [length] in FL.
      assert (HZ : z = Z.testbit v (Z.of_nat (w - 1))).
      { pose proof (f_equal (fun l => nth (w - 1) l false) F3) as FN. cbv beta in FN.
        rewrite app_nth2 in FN by lia. replace (w - 1 - length b1)%nat with 0%nat in FN by lia. cbn [nth] in FN. rewrite <- FN.
        rewrite (nth_indep _ false (Z.testbit v (Z.of_nat 0))) by (rewrite map_length, seq_length; lia).
        rewrite (map_nth (fun i => Z.testbit v (Z.of_nat i))), seq_nth by lia. reflexivity. }
      assert (HT : Z.testbit v (Z.of_nat (w - 1)) = true).
      { apply Z.testbit_true; [lia|]. replace (v / 2 ^ Z.of_nat (w - 1)) with 1; [reflexivity|].
        apply (Z.div_unique v (2 ^ Z.of_nat (w - 1)) 1 (v - 2 ^ Z.of_nat (w - 1))); [|ring].
        left. assert (HS : 2 ^ Z.of_nat w = 2 * 2 ^ Z.of_nat (w - 1)).
        { replace (Z.of_nat w) with (Z.succ (Z.of_nat (w - 1))) by lia. apply Z.pow_succ_r. lia. }
        lia. }
      rewrite HT in HZ. now subst z.
    + cbv beta. intros _ _. split; [reflexivity|exact I].
Qed.
Lemma full_bits_swp md b vs v : let w := limb_width (bparams b) in
  ev rho (limbs b) (vs ++ [v]) -> canon v -> (w < NUM_BITS)%nat ->
  swp md rho (enforce_full_bits b) (fun _ => 2 ^ Z.of_nat (w - 1) <= v < 2 ^ Z.of_nat w).
Proof.
  intros w Hev HC Hw. unfold enforce_full_bits. fold w. sstep. sstep. intros ov _. sstep. sstep. intros [lc rest] Hp.
  destruct (vec_pop (limbs b)) as [[l1 r1]|] eqn:Hl; [|discriminate]. injection Hp as <- <-. apply vec_pop_inv in Hl.
  rewrite Hl in Hev. apply Forall2_app_inv_l in Hev as (v1 & v2 & E1 & E2 & E3). inversion E2 as [|? z ? ? E4 E5]; subst. inversion E5; subst.
  apply app_inj_tail in E3 as [<- <-]. sstep. sstep.
  eapply swp_mono; [apply num_decompose_swp; auto|]. cbv beta. intros bv (bs & H1 & [H2 H2'] & H3 & _). cbn [n_lc] in H3.
  sstep. sstep. intros bits Hb. apply into_bits_lc in Hb. sstep. sstep. intros [last init] Hq.
  destruct (vec_pop bits) as [[x y]|] eqn:Hpb; [|discriminate]. injection Hq as <- <-. apply vec_pop_inv in Hpb.
  sstep. sstep. eapply swp_mono; [apply bit_constrain_swp; auto|]. cbv beta. intros _ Hx. sstep.
  assert (Hlen : length bs = S (length y)).
  { pose proof (Forall2_length _ _ _ H2') as HL. rewrite <- Hb, map_length, Hpb, app_length in HL. cbn [length] in HL. lia. }
  assert (Hlast : nth (length y) bs false = true).
  { rewrite <- Hb, Hpb, map_app in H2'. cbn [map] in H2'. apply Forall2_app_inv_l in H2'.
    destruct H2' as (b1 & b2 & F1 & F2 & ->). pose proof (Forall2_length _ _ _ F1) as HL. rewrite map_length in HL.
    inversion F2 as [|? z ? ? F3 F4]; subst. inversion F4; subst. rewrite app_nth2, <- HL, Nat.sub_diag by lia. cbn [nth].
    apply b2z_eqp_inj. unfold wire_bit in *. now rewrite <- F3, Hx. }
  rewrite (bits_unique v bs w); auto; [|now rewrite <- E4].
  split; [apply bits_value_nth; exists (length y); split; auto; lia|]. pose proof (bits_value_bound bs) as HB. rewrite H1 in HB. lia.
Qed.

(** ** enforce_min_bits *)
Definition min_bits_wits (w k : nat) (vs : list Z) : list Z :=
  flat_map (fun y => map Z.b2z (bits_of w y)) vs ++
  [match finvert (ones_in (skipn (k - 1) (flat_map (bits_of w) vs))) with Some i => i | None => 0 end].
Lemma min_bits_pwp md b k vs : let w := limb_width (bparams b) in
  is_bn rho md b vs -> md <> Honest -> (w < NUM_BITS)%nat -> (1 <= k)%nat -> Z.of_nat (w * length vs) < modulus ->
  Forall (fun v => v < 2 ^ Z.of_nat w) vs -> 2 ^ Z.of_nat (k - 1) <= value_of (2 ^ Z.of_nat w) vs ->
  pwp md rho (enforce_min_bits b k) (min_bits_wits w k vs) (fun _ => True).
Proof.
  intros w HB Hmd Hw Hk Hlen HR Hv. unfold enforce_min_bits, min_bits_wits.
  apply pwp_bind, pwp_ns. eapply pwp_mono; [apply awp_pwp, (bn_decompose_awp rho one md b vs HB HR); fold w; lia|]. fold w.
  cbv beta. intros bv [[_ Hb] _]. apply pwp_host. intros bits Hbits. apply into_bits_lc in Hbits. apply pwp_host. intros k' Hk'.
  rewrite min_skip_pos in Hk' by auto. injection Hk' as <-. cbv zeta.
  destruct HB as (Hev & _ & _ & HC & _).
  set (bs := flat_map (bits_of w) vs) in *.
  assert (HVal : bits_value bs = value_of (2 ^ Z.of_nat w) vs).
  { unfold bs. rewrite flat_map_concat_map, (bits_value_concat w), map_map.
    - f_equal. rewrite <- (map_id vs) at 2. apply map_ext_in. intros v Hin. rewrite Forall_forall in HR, HC. apply bits_of_value. specialize (HR v Hin). specialize (HC v Hin). unfold canon in HC. lia.
    - apply Forall_forall. intros x Hx. apply in_map_iff in Hx as (v & <- & _). apply bits_of_length. }
  assert (HL : length bs = (w * length vs)%nat).
  { unfold bs. clear. induction vs as [|v vs IH]; cbn [flat_map length]; [lia|]. rewrite app_length, bits_of_length, IH. lia. }
  set (n := ones_in (skipn (k - 1) bs)).
  assert (Hn : 0 < n) by (apply upper_ones; rewrite HVal; exact Hv).
  assert (Hn2 : n < modulus). { unfold n. pose proof (ones_in_range (skipn (k - 1) bs)) as H. rewrite skipn_length, HL in H. lia. }
  destruct (finvert_spec n) as (i & Hi & _ & Hi2).
  { intros H. apply eqp_small in H; lia. }
  rewrite Hi. rewrite <- (app_nil_r [i]). apply pwp_bind. cbn [alloc pwp]. intros x v Hx _. split; [reflexivity|].
  apply (pwp_bind md rho _ _ _ [] []). cbn [enforce pwp]. split.
  - apply csat_R1. rewrite <- Hbits in Hb. pose proof (Forall2_skipn _ (k - 1) _ _ Hb) as H4. rewrite skipn_map in H4.
    rewrite (sum_bits_eval _ _ _ H4). lcs. rewrite Hx, one. fold n. rewrite Z.mul_comm. exact Hi2.
  - split; [reflexivity|]. split; [reflexivity|exact I].
Qed.
Lemma min_bits_swp md b k vs : let w := limb_width (bparams b) in
  ev rho (limbs b) vs -> Forall canon vs -> (w < NUM_BITS)%nat ->
  swp md rho (enforce_min_bits b k) (fun _ => Forall (fun v => v < 2 ^ Z.of_nat w) vs /\ 2 ^ Z.of_nat (k - 1) <= value_of (2 ^ Z.of_nat w) vs).
Proof.
  intros w Hev HC Hw. apply swp_both.
  - unfold enforce_min_bits. sstep. sstep. eapply swp_mono; [apply bn_decompose_swp; auto|]. cbv beta.
    intros bv (bss & H1 & _). eapply swp_mono; [apply swp_true|]. intros _ _.
    pose proof (limb_bits _ _ _ _ Hw H1) as HBt. rewrite (ev_canon _ _ _ Hev HC) in HBt. rewrite HBt.
    apply Forall_forall. intros v Hv. apply in_map_iff in Hv as (bs & <- & Hbs).
    pose proof (Forall2_len_Forall _ _ _ _ H1) as HF. rewrite Forall_forall in HF. specialize (HF _ Hbs).
    pose proof (bits_value_bound bs) as HB. rewrite HF in HB. fold w in HB. lia.
  - eapply swp_mono; [apply (enforce_min_bits_swp rho one md b k)|]. cbv beta. intros c (_ & _ & _ & _ & _ & H).
    specialize (H Hw). unfold int_of in H. rewrite (ev_canon _ _ _ Hev HC) in H. exact H.
Qed.

(** ** mux_tree and switch *)
Lemma mux_pwp md s x i0 i1 A0 A1 : md <> Honest -> wire_bit rho (b_lc s) x -> is_bn rho md i0 A0 -> is_bn rho md i1 A1 ->
  let A := padded (Nat.max (length A0) (length A1)) (wsel x A0 A1) in
  pwp md rho (mux s i0 i1) A (fun out => is_bn rho md out A).
Proof.
  intros Hmd Hx B0 B1 A. destruct (Nat.eq_dec (limb_width (bparams i1)) (limb_width (bparams i0))) as [HW|HW].
  - apply awp_pwp. eapply awp_mono; [apply (mux_awp rho md s x i0 i1 A0 A1); auto; contradiction|]. cbv beta. tauto.
  - unfold mux. apply pwp_host. intros j0 J0. apply pwp_host. intros j1 J1.
    destruct (with_n_limbs_shape _ _ _ J0 (proj1 (is_bn_shaped _ _ _ _ B0))) as (_ & _ & P0).
    destruct (with_n_limbs_shape _ _ _ J1 (proj1 (is_bn_shaped _ _ _ _ B1))) as (_ & _ & P1).
    rewrite P0, P1. cbn [limb_width]. rewrite (proj2 (Nat.eqb_neq (limb_width (bparams i0)) (limb_width (bparams i1)))) by auto.
    cbn [negb]. rewrite orb_true_r. exact I.
Qed.
Lemma switch_pwp md s x i0 i1 A0 A1 : md <> Honest -> wire_bit rho (b_lc s) x -> is_bn rho md i0 A0 -> is_bn rho md i1 A1 ->
  let n := Nat.max (length A0) (length A1) in
  pwp md rho (switch s i0 i1) (padded n (wsel x A0 A1) ++ padded n (wsel (negb x) A0 A1)) (fun o =>
    is_bn rho md (fst o) (padded n (wsel x A0 A1)) /\ is_bn rho md (snd o) (padded n (wsel (negb x) A0 A1))).
Proof.
  intros Hmd Hx B0 B1 n. unfold switch. apply pwp_bind, pwp_ns. eapply pwp_mono; [apply (mux_pwp md s x i0 i1 A0 A1); auto|]. cbv beta. intros o0 H0.
  rewrite <- (app_nil_r (padded n (wsel (negb x) A0 A1))). apply pwp_bind, pwp_ns.
  eapply pwp_mono; [apply (mux_pwp md (bit_not s) (negb x) i0 i1 A0 A1); auto|].
  - unfold wire_bit in *. cbn [bit_not b_lc]. lcs. rewrite one, Hx. destruct x; cbn [Z.b2z negb]; ering.
  - cbv beta. intros o1 H1. cbn [pwp fst snd]. rewrite app_nil_r. auto.
Qed.
Fixpoint tree_val (xs : list bool) (As : list (list Z)) : list Z :=
  match xs with
  | [] => match As with A :: _ => A | [] => [] end
  | x :: xs => let h := (length As / 2)%nat in
      let l := tree_val xs (firstn h As) in let r := tree_val xs (skipn h As) in
      padded (Nat.max (length l) (length r)) (wsel x l r)
  end.
Fixpoint tree_wits (xs : list bool) (As : list (list Z)) : list Z :=
  match xs with
  | [] => []
  | x :: xs' => let h := (length As / 2)%nat in
      tree_wits xs' (firstn h As) ++ tree_wits xs' (skipn h As) ++ tree_val xs As
  end.
Lemma Forall2_firstn {A B} (R : A -> B -> Prop) n : forall l1 l2, Forall2 R l1 l2 -> Forall2 R (firstn n l1) (firstn n l2).
Proof. induction n; intros l1 l2 H; simpl; auto. destruct H; auto. Qed.
Lemma mux_tree_pwp md : md <> Honest -> forall bits xs inputs As,
  Forall2 (fun b x => wire_bit rho (b_lc b) x) bits xs -> Forall2 (is_bn rho md) inputs As ->
  pwp md rho (mux_tree bits inputs) (tree_wits xs As) (fun out => is_bn rho md out (tree_val xs As)).
Proof.
  intros Hmd. induction bits as [|b bits IH]; intros xs inputs As Hx Hi.
  - inversion Hx; subst. destruct Hi as [|i A inputs As Hi [|? ? ? ? ? ?]]; cbn [mux_tree pwp tree_wits tree_val]; auto.
  - inversion Hx as [|? x ? xs' Hb Hxs]; subst. cbn [mux_tree]. destruct (negb _); [exact I|].
    cbn [tree_wits]. rewrite (Forall2_length _ _ _ Hi). set (h := (length As / 2)%nat).
    apply pwp_bind, pwp_ns. eapply pwp_mono; [apply (IH xs' _ _ Hxs (Forall2_firstn _ h _ _ Hi))|]. cbv beta. intros l Hl.
    apply pwp_bind, pwp_ns. eapply pwp_mono; [apply (IH xs' _ _ Hxs (Forall2_skipn _ h _ _ Hi))|]. cbv beta. intros r Hr.
    apply pwp_ns. cbn [tree_val]. fold h. apply mux_pwp; auto.
Qed.
End Rho.

(** ** Final forms *)
Section Top.
Context (s : st) (rho0 : assignment) (G : good_for rho0 s) (wit : bool).
Lemma here : sat rho0 s.
Proof. apply G, same_on_refl. Qed.
Lemma for_canon l v : carries_for rho0 s l v -> canon v.
Proof. intros H. rewrite <- (H rho0 (same_on_refl _ _) (proj1 here)). apply fmk_canon. Qed.
Lemma for_canons ls vs : Forall2 (carries_for rho0 s) ls vs -> Forall canon vs.
Proof. intros H. induction H; constructor; eauto using for_canon. Qed.
Lemma for_ev ls vs rho : Forall2 (carries_for rho0 s) ls vs -> same_on s rho rho0 -> rho ONE = 1 -> ev rho ls vs.
Proof. intros H Hs one. induction H; constructor; auto. eapply carries_for_eqp; eauto. Qed.
Lemma for_is b vs rho : well_shaped b -> Forall2 (carries_for rho0 s) (limbs b) vs -> same_on s rho rho0 -> rho ONE = 1 ->
  is_bn rho (md_of wit) b vs.
Proof.
  intros [S1 S2] Hc Hs one. pose proof (for_ev _ _ _ Hc Hs one) as He. split; auto. split; auto.
  split; [rewrite S1; exact (ev_length _ _ _ He)|]. split; [eapply for_canons; eauto|]. apply md_of_not.
Qed.
Lemma extend {A} (m : prog A) ys Q a s' : (forall rho, same_on s rho rho0 -> rho ONE = 1 -> pwp (md_of wit) rho m ys (Q rho)) ->
  run wit m s = (Ok a, s') -> exists rho, same_on s rho rho0 /\ sat rho s' /\ Q rho a.
Proof.
  intros H Hr. destruct (pwp_run wit m s rho0 ys Q a s' G H Hr) as (rho & H1 & H2 & H3).
  exists rho. split; auto. split; [apply H2, same_on_refl|apply H3, same_on_refl].
Qed.

Lemma top_equals_extends a b x y r s' : carries_for rho0 s (lc_var (an_var a)) x -> carries_for rho0 s (lc_var (an_var b)) y ->
  run wit (equals a b) s = (Ok r, s') ->
  exists rho, same_on s rho rho0 /\ sat rho s' /\ feval rho (bool_lc r 1) = Z.b2z (x =? y).
Proof.
  intros Ha Hb Hr. refine (extend (equals a b) (eq_aux x y) (fun rho r => feval rho (bool_lc r 1) = Z.b2z (x =? y)) r s' _ Hr).
  intros rho Hso one. apply awp_pwp. eapply awp_mono; [apply (equals_awp rho one (md_of wit) a b x y (md_of_any wit))|].
  - pose proof (carries_for_eqp _ _ _ _ _ Ha Hso one) as H. lcs_in H. exact H.
  - pose proof (carries_for_eqp _ _ _ _ _ Hb Hso one) as H. lcs_in H. exact H.
  - eapply for_canon; eauto.
  - eapply for_canon; eauto.
  - cbv beta. intros r0 [H _]. apply feval_eqp; [apply b2z_canon|exact H].
Qed.
Lemma top_is_equal_extends a b xs ys r s' : Forall2 (carries_for rho0 s) (limbs a) xs -> Forall2 (carries_for rho0 s) (limbs b) ys ->
  run wit (is_equal a b) s = (Ok r, s') ->
  exists rho, same_on s rho rho0 /\ sat rho s' /\ feval rho (bool_lc r 1) = Z.b2z (if list_eq_dec Z.eq_dec xs ys then true else false).
Proof.
  intros Ha Hb Hr.
  assert (HL : length xs = length ys /\ limb_width (bparams a) = limb_width (bparams b)).
  { unfold is_equal in Hr. rewrite (Forall2_length _ _ _ Ha), (Forall2_length _ _ _ Hb) in Hr.
    destruct (Nat.eqb_spec (length xs) (length ys)) as [H|]; [|discriminate Hr]. split; auto.
    cbn [negb] in Hr. unfold width_agreement in Hr. destruct (Nat.eqb_spec (limb_width (bparams a)) (limb_width (bparams b))); auto. discriminate Hr. }
  destruct HL as [HL HW].
  refine (extend (is_equal a b) _ (fun rho r => feval rho (bool_lc r 1) = Z.b2z (if list_eq_dec Z.eq_dec xs ys then true else false)) r s' _ Hr).
  intros rho Hso one. apply awp_pwp. eapply awp_mono; [apply (is_equal_awp rho one (md_of wit) a b xs ys (md_of_any wit)); eauto using for_ev, for_canons|].
  cbv beta. intros r0 H. apply feval_eqp; [apply b2z_canon|].
  replace (if list_eq_dec Z.eq_dec xs ys then true else false) with (same_below xs ys (length xs)); [exact H|].
  pose proof (same_below_all xs ys HL) as HS. destruct (list_eq_dec Z.eq_dec xs ys); destruct (same_below xs ys (length xs)); tauto.
Qed.
Lemma top_as_nums_extends b xs ns s' : Forall2 (carries_for rho0 s) (limbs b) xs ->
  run wit (as_nums b) s = (Ok ns, s') ->
  exists rho, same_on s rho rho0 /\ sat rho s' /\ map (fun n => rho (an_var n)) ns = xs.
Proof.
  intros Hb Hr. refine (extend (as_nums b) xs (fun rho ns => map (fun n => rho (an_var n)) ns = xs) ns s' _ Hr).
  intros rho Hso one. apply awp_pwp. apply as_nums_awp; eauto using for_ev, for_canons, md_of_any.
Qed.
Lemma top_product_extends a b A B p s' : Forall2 (carries_for rho0 s) (p_coeffs a) A -> Forall2 (carries_for rho0 s) (p_coeffs b) B ->
  (match p_vals a with Some xs => length xs = length A | None => True end) ->
  (match p_vals b with Some xs => length xs = length B | None => True end) ->
  (1 <= length A)%nat -> (1 <= length B)%nat ->
  run wit (alloc_product a b) s = (Ok p, s') ->
  exists rho, same_on s rho rho0 /\ sat rho s' /\
    wires rho (p_coeffs p) = map (fun i => conv A B i mod modulus) (seq 0 (length A + length B - 1)).
Proof.
  intros Ha Hb Va Vb LA LB Hr.
  refine (extend (alloc_product a b) _ (fun rho p => wires rho (p_coeffs p) = map (fun i => conv A B i mod modulus) (seq 0 (length A + length B - 1))) p s' _ Hr).
  intros rho Hso one. apply awp_pwp. eapply awp_mono; [apply (alloc_product_awp rho (md_of wit) a b A B); eauto using for_ev; apply md_of_not|].
  cbv beta. intros q (H & _). apply ev_canon; [exact H|]. apply Forall_forall. intros z Hz. apply in_map_iff in Hz as (i & <- & _). exact (fmk_canon _).
Qed.
Lemma top_mux_extends sb x i0 i1 A0 A1 out s' : carries_for rho0 s (b_lc sb) (Z.b2z x) ->
  well_shaped i0 -> Forall2 (carries_for rho0 s) (limbs i0) A0 -> well_shaped i1 -> Forall2 (carries_for rho0 s) (limbs i1) A1 ->
  run wit (mux sb i0 i1) s = (Ok out, s') ->
  exists rho, same_on s rho rho0 /\ sat rho s' /\
    wires rho (limbs out) = padded (Nat.max (length A0) (length A1)) (if x then A1 else A0).
Proof.
  intros Hx S0 H0 S1 H1 Hr.
  assert (HW : limb_width (bparams i1) = limb_width (bparams i0)).
  { assert (Hrw : rwp (mux sb i0 i1) (fun _ => limb_width (bparams i1) = limb_width (bparams i0))).
    { unfold mux. apply rwp_bind, rwp_lift. intros j0 J0. apply rwp_bind, rwp_lift. intros j1 J1.
      destruct (with_n_limbs_shape _ _ _ J0 (proj1 S0)) as (_ & _ & P0). destruct (with_n_limbs_shape _ _ _ J1 (proj1 S1)) as (_ & _ & P1).
      destruct (_ || _) eqn:Ed; [exact I|]. apply orb_false_iff in Ed. destruct Ed as [_ Ew].
      apply negb_false_iff, Nat.eqb_eq in Ew. rewrite P0, P1 in Ew. cbn [limb_width] in Ew.
      apply rwp_skip. intros o. apply rwp_skip. intros _. simpl. auto. }
    exact (rwp_run _ _ _ _ _ _ Hr Hrw). }
  refine (extend (mux sb i0 i1) _ (fun rho out => wires rho (limbs out) = padded (Nat.max (length A0) (length A1)) (if x then A1 else A0)) out s' _ Hr).
  intros rho Hso one. apply awp_pwp. eapply awp_mono; [apply (mux_awp rho (md_of wit) sb x i0 i1 A0 A1); eauto using for_is; try apply md_of_not|].
  - unfold wire_bit. eapply carries_for_eqp; eauto.
  - cbv beta. intros o [(H & _ & _ & HC & _) _]. apply ev_canon; auto.
Qed.
Lemma top_switch_extends sb x i0 i1 A0 A1 o0 o1 s' : carries_for rho0 s (b_lc sb) (Z.b2z x) ->
  well_shaped i0 -> Forall2 (carries_for rho0 s) (limbs i0) A0 -> well_shaped i1 -> Forall2 (carries_for rho0 s) (limbs i1) A1 ->
  run wit (switch sb i0 i1) s = (Ok (o0, o1), s') ->
  exists rho, same_on s rho rho0 /\ sat rho s' /\
    wires rho (limbs o0) = padded (Nat.max (length A0) (length A1)) (if x then A1 else A0) /\
    wires rho (limbs o1) = padded (Nat.max (length A0) (length A1)) (if x then A0 else A1).
Proof.
  intros Hx S0 H0 S1 H1 Hr. set (n := Nat.max (length A0) (length A1)).
  refine (extend (switch sb i0 i1) _ (fun rho o => wires rho (limbs (fst o)) = padded n (if x then A1 else A0) /\ wires rho (limbs (snd o)) = padded n (if x then A0 else A1)) (o0, o1) s' _ Hr).
  intros rho Hso one. eapply pwp_mono; [apply (switch_pwp rho one (md_of wit) sb x i0 i1 A0 A1 (md_of_any wit)); eauto using for_is|].
  - unfold wire_bit. eapply carries_for_eqp; eauto.
  - cbv beta. intros o [(Ha & _ & _ & HC & _) (Ha' & _ & _ & HC' & _)]. split; apply ev_canon; auto; destruct x; auto.
Qed.
Lemma top_mux_tree_extends bits xs inputs As out s' : Forall2 (fun b x => carries_for rho0 s (b_lc b) (Z.b2z x)) bits xs ->
  Forall2 (fun i A => well_shaped i /\ Forall2 (carries_for rho0 s) (limbs i) A) inputs As ->
  run wit (mux_tree bits inputs) s = (Ok out, s') -> exists rho, same_on s rho rho0 /\ sat rho s'.
Proof.
  intros Hx Hi Hr. destruct (extend (mux_tree bits inputs) (tree_wits xs As) (fun _ _ => True) out s') with (2 := Hr) as (rho & H1 & H2 & _); [|eauto].
  intros rho Hso one. eapply pwp_mono; [apply (mux_tree_pwp rho (md_of wit) (md_of_any wit) bits xs inputs As)|auto].
  - clear -Hx Hso one W. induction Hx as [|b x bits xs Hb _ IH]; constructor; auto. unfold wire_bit. eapply carries_for_eqp; eauto.
  - clear -Hi Hso one W G. induction Hi as [|i A inputs As [H1 H2] _ IH]; constructor; auto. now apply for_is.
Qed.
Lemma top_decompose_exact b vs bv s' : well_shaped b -> Forall2 (carries_for rho0 s) (limbs b) vs -> (limb_width (bparams b) < NUM_BITS)%nat ->
  run wit (bn_decompose b) s = (Ok bv, s') ->
  ((exists rho, same_on s rho rho0 /\ sat rho s') <-> Forall (fun v => v < 2 ^ Z.of_nat (limb_width (bparams b))) vs).
Proof.
  intros S H Hw Hr. split.
  - intros (rho & Hso & Hs).
    destruct (swp_run_any _ _ _ _ _ _ _ Hr Hs (bn_decompose_swp rho (proj1 Hs) Any b)) as (bss & H1 & _).
    pose proof (limb_bits _ _ _ _ Hw H1) as HBt. rewrite (ev_canon _ _ _ (for_ev _ _ _ H Hso (proj1 Hs)) (for_canons _ _ H)) in HBt. rewrite HBt.
    apply Forall_forall. intros v Hv. apply in_map_iff in Hv as (bs & <- & Hbs).
    pose proof (Forall2_len_Forall _ _ _ _ H1) as HF. rewrite Forall_forall in HF. specialize (HF _ Hbs).
    pose proof (bits_value_bound bs) as HB. rewrite HF in HB. lia.
  - intros Hv. destruct (extend (bn_decompose b) _ (fun _ _ => True) bv s'
      (fun rho Hso one => pwp_mono _ _ _ _ _ _ (awp_pwp _ _ _ _ _ (bn_decompose_awp rho one (md_of wit) b vs (for_is b vs rho S H Hso one) Hv (Nat.lt_le_incl _ _ Hw))) (fun _ _ => I)) Hr)
      as (rho & H1 & H2 & _). eauto.
Qed.
Lemma top_full_bits_exact b vs v c s' : well_shaped b -> Forall2 (carries_for rho0 s) (limbs b) (vs ++ [v]) -> (limb_width (bparams b) < NUM_BITS)%nat ->
  run wit (enforce_full_bits b) s = (Ok c, s') ->
  ((exists rho, same_on s rho rho0 /\ sat rho s') <->
   2 ^ Z.of_nat (limb_width (bparams b) - 1) <= v < 2 ^ Z.of_nat (limb_width (bparams b))).
Proof.
  intros S H Hw Hr. split.
  - intros (rho & Hso & Hs). pose proof (for_canons _ _ H) as HC. apply Forall_app in HC as [_ HC]. inversion HC; subst.
    exact (swp_run_any _ _ _ _ _ _ _ Hr Hs (full_bits_swp rho (proj1 Hs) Any b vs v (for_ev _ _ _ H Hso (proj1 Hs)) ltac:(assumption) Hw)).
  - intros Hv. destruct (extend (enforce_full_bits b) _ (fun _ _ => True) c s'
      (fun rho Hso one => full_bits_pwp rho one (md_of wit) b vs v (for_is b _ rho S H Hso one) (md_of_any wit) Hw Hv) Hr)
      as (rho & H1 & H2 & _). eauto.
Qed.
Lemma top_min_bits_exact b k vs c s' : well_shaped b -> Forall2 (carries_for rho0 s) (limbs b) vs -> (limb_width (bparams b) < NUM_BITS)%nat ->
  (1 <= k)%nat -> Z.of_nat (limb_width (bparams b) * length vs) < modulus ->
  run wit (enforce_min_bits b k) s = (Ok c, s') ->
  ((exists rho, same_on s rho rho0 /\ sat rho s') <->
   Forall (fun v => v < 2 ^ Z.of_nat (limb_width (bparams b))) vs /\
   2 ^ Z.of_nat (k - 1) <= value_of (2 ^ Z.of_nat (limb_width (bparams b))) vs).
Proof.
  intros S H Hw Hk HL Hr. split.
  - intros (rho & Hso & Hs).
    exact (swp_run_any _ _ _ _ _ _ _ Hr Hs (min_bits_swp rho (proj1 Hs) Any b k vs (for_ev _ _ _ H Hso (proj1 Hs)) (for_canons _ _ H) Hw)).
  - intros [Hv1 Hv2]. destruct (extend (enforce_min_bits b k) _ (fun _ _ => True) c s'
      (fun rho Hso one => min_bits_pwp rho one (md_of wit) b k vs (for_is b _ rho S H Hso one) (md_of_any wit) Hw Hk HL Hv1 Hv2) Hr)
      as (rho & H1 & H2 & _). eauto.
Qed.
End Top.
End Relation.
