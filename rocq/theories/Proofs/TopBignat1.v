(** Final forms of the lemmas about equality, allocation and decomposition of big naturals. *)
From Coq Require Import ZArith Bool List Lia Setoid Morphisms ZifyBool ZifyNat.
From Verif.Model Require Import Base CS Bellpepper Util Poly Bignat.
From Verif.Spec Require Import Spec.
From Verif.Proofs Require Import Field Arith Convert Limbs Wp Lc BitNum PolyP BoolP BignatEq BignatAlloc TopBits TopPoly.
Import ListNotations.
Local Open Scope Z_scope.

Section Top.
Context {E : Env} {W : Wf E}.

Lemma an_at_is s n v rho : an_at s n v -> agree s rho -> rho ONE = 1 -> is_an rho n v.
Proof.
  intros (H1 & H2 & H3) Ha one. split; auto. split; auto.
  pose proof (carries_eqp _ _ _ _ H3 Ha one) as H. lcs_in H. exact H.
Qed.
Lemma boolean_at_is s b v rho : boolean_at s b v -> agree s rho -> rho ONE = 1 -> is_bool rho b v.
Proof. intros [H1 H2] Ha one. split; auto. apply wire_bit_feval. auto. Qed.
Lemma is_boolean_at s b v : (forall rho, agree s rho -> is_bool rho b v) -> boolean_at s b v.
Proof.
  intros H. split; [apply (H _ (agree_asg s))|]. intros rho Ha _. apply wire_bit_feval. now apply H.
Qed.
Lemma wire_bool_feval rho b x : wire_bool rho b x <-> feval rho (bool_lc b 1) = Z.b2z x.
Proof. apply wire_bit_feval. Qed.
Lemma feval_eq rho l1 l2 : feval rho l1 = feval rho l2 <-> eqp (lc_eval rho l1) (lc_eval rho l2).
Proof. unfold feval. symmetry. apply eqp_eq. Qed.
Lemma nth_wires rho ls i : nth i (wires rho ls) 0 = feval rho (nth i ls lc_zero).
Proof.
  unfold wires. destruct (Nat.lt_ge_cases i (length ls)).
  - rewrite (nth_indep _ 0 (feval rho lc_zero)) by now rewrite map_length. apply map_nth.
  - rewrite !nth_overflow by (rewrite ?map_length; lia). reflexivity.
Qed.

(** ** equals, equal, is_equal *)
Lemma top_equals_sound wit a b s r s' rho : run wit (equals a b) s = (Ok r, s') -> sat rho s' ->
  exists x, feval rho (bool_lc r 1) = Z.b2z x /\
    (x = true <-> feval rho (lc_var (an_var a)) = feval rho (lc_var (an_var b))).
Proof.
  intros Hr Hs. destruct (swp_run_any _ _ _ _ _ _ _ Hr Hs (equals_swp rho (proj1 Hs) Any a b))
    as (x & Hx & He).
  exists x. split; [now apply wire_bool_feval|]. rewrite feval_eq. lcs. exact He.
Qed.
Lemma top_equals_complete a b x y s : good s -> an_at s a x -> an_at s b y ->
  exists r s', run true (equals a b) s = (Ok r, s') /\ good s' /\ boolean_at s' r (x =? y).
Proof.
  intros G Ha Hb.
  destruct (hwp_run _ s _ G (fun rho Hag one => equals_hwp rho one a b x y
     (an_at_is _ _ _ _ Ha Hag one) (an_at_is _ _ _ _ Hb Hag one))) as (r & s' & Hr & Hg & _ & HQ).
  exists r, s'. split; auto. split; auto. apply is_boolean_at. exact HQ.
Qed.

Lemma run_iterM_ok {A} wit (f : A -> prog unit) l :
  (forall x s, exists s', run wit (f x) s = (Ok tt, s')) -> forall s, exists s',
  run wit (iterM f l) s = (Ok tt, s').
Proof.
  intros H. induction l as [|x l IH]; intros s; cbn [iterM]; [simpl; eauto|].
  rewrite run_bind. destruct (H x s) as [s1 ->]. apply IH.
Qed.

Lemma equal_ge_run wit a b s : limb_width (bparams a) = limb_width (bparams b) ->
  exists s', run wit (equal_ge a b) s = (Ok tt, s').
Proof.
  intros HW. unfold equal_ge, width_agreement. rewrite HW, Nat.eqb_refl. cbn [lift bind].
  match goal with |- context [bind (iterM ?f ?l) _] =>
    destruct (run_iterM_ok wit f l ltac:(intros; simpl; eauto) s) as [s1 H1] end.
  rewrite run_bind, H1. apply run_iterM_ok. intros; simpl; eauto.
Qed.

Lemma top_equal_iff wit a b s : limb_width (bparams a) = limb_width (bparams b) ->
  exists s', run wit (equal a b) s = (Ok tt, s') /\ forall rho, sat rho s' <->
    sat rho s /\ forall i, nth i (wires rho (limbs a)) 0 = nth i (wires rho (limbs b)) 0.
Proof.
  intros HW. assert (R : exists s', run wit (equal a b) s = (Ok tt, s')).
  { unfold equal. destruct (_ <? _)%nat; apply equal_ge_run; auto. }
  destruct R as [s' Hr]. exists s'. split; auto. intros rho. split.
  - intros Hs. split; [eapply run_sat; eauto|]. intros i. rewrite !nth_wires. apply feval_eq.
    exact (swp_run_any _ _ _ _ _ _ _ Hr Hs (equal_swp rho Any a b) i).
  - intros [Hs H]. apply (awp_run_nil Any wit rho (equal a b) s (fun _ => True) tt); auto.
    apply equal_awp; auto. intros i. apply feval_eq. rewrite <- !nth_wires. apply H.
Qed.
Lemma top_equal_error wit a b s : limb_width (bparams a) <> limb_width (bparams b) ->
  run wit (equal a b) s = (Err Unsatisfiable, s).
Proof.
  intros HW. unfold equal, equal_ge, width_agreement.
  destruct (_ <? _)%nat; [rewrite (proj2 (Nat.eqb_neq _ _)) by congruence|rewrite (proj2 (Nat.eqb_neq _ _)) by auto];
    reflexivity.
Qed.

Lemma top_is_equal_sound wit a b s r s' rho : run wit (is_equal a b) s = (Ok r, s') -> sat rho s' ->
  exists x, feval rho (bool_lc r 1) = Z.b2z x /\ (x = true <-> wires rho (limbs a) = wires rho (limbs b)).
Proof.
  intros Hr Hs.
  assert (HL : length (limbs a) = length (limbs b)).
  { unfold is_equal in Hr. destruct (Nat.eqb_spec (length (limbs a)) (length (limbs b))); auto.
    cbn [negb run] in Hr. discriminate. }
  destruct (swp_run_any _ _ _ _ _ _ _ Hr Hs (is_equal_swp rho (proj1 Hs) Any a b)) as (x & Hx & He).
  exists x. split; [now apply wire_bool_feval|]. rewrite He. split.
  - intros H. apply (nth_ext _ _ 0 0); unfold wires; rewrite !map_length; auto.
    intros i Hi. fold (wires rho (limbs a)) (wires rho (limbs b)). rewrite !nth_wires.
    apply feval_eq, H, Hi.
  - intros H i _. apply feval_eq. rewrite <- !nth_wires. now rewrite H.
Qed.

Lemma bignat_at_is s b vs rho : bignat_at s b vs -> agree s rho -> rho ONE = 1 ->
  is_bn rho Honest b vs /\ in_word b vs.
Proof.
  intros (H1 & H2 & H3 & H4 & H5) Ha one.
  assert (Hc : Forall canon vs) by (eapply Forall_impl; [|exact H5]; cbn; tauto).
  assert (He : ev rho (limbs b) vs) by (eapply carries_ev; eauto).
  split.
  - split; auto. split; [|auto]. unfold lv_ok. rewrite H1. split; auto.
    symmetry. eapply ev_length; eauto.
  - eapply Forall_impl; [|exact H5]; cbn; tauto.
Qed.
Lemma is_bignat_at s b vs : (forall rho, agree s rho -> is_bn rho Honest b vs) -> in_word b vs ->
  bignat_at s b vs.
Proof.
  intros H HI. destruct (H _ (agree_asg s)) as (H1 & H2 & H3 & H4 & H5).
  destruct (H5 eq_refl) as [H6 H7].
  split; auto. split; [|split; auto; split; auto].
  - apply carries_list. intros rho Ha. destruct (H rho Ha) as (G1 & _). now apply ev_canon.
  - apply Forall_forall. unfold in_word in HI. rewrite Forall_forall in HI, H4. auto.
Qed.

Lemma top_is_equal_complete a b xs ys s : good s -> bignat_at s a xs -> bignat_at s b ys ->
  length xs = length ys -> limb_width (bparams a) = limb_width (bparams b) ->
  exists r s' x, run true (is_equal a b) s = (Ok r, s') /\ good s' /\ boolean_at s' r x /\
    (x = true <-> xs = ys).
Proof.
  intros G Ha Hb HL HW.
  destruct (hwp_run (is_equal a b) s (fun rho r => is_bool rho r (if list_eq_dec Z.eq_dec xs ys then true else false)) G)
    as (r & s' & Hr & Hg & _ & HQ).
  { intros rho Hag one.
    destruct (bignat_at_is _ _ _ _ Ha Hag one) as [(A1 & A2 & A3 & A4 & A5) _].
    destruct (bignat_at_is _ _ _ _ Hb Hag one) as [(B1 & B2 & B3 & B4 & B5) _].
    destruct (A5 eq_refl) as [A6 _]. destruct (B5 eq_refl) as [B6 _].
    eapply hwp_mono; [apply (is_equal_hwp rho one a b xs ys); auto|].
    intros r (x & Hx & Hi). destruct (list_eq_dec Z.eq_dec xs ys); destruct x; auto; exfalso.
    - assert (false = true) by now apply Hi. discriminate.
    - apply n. now apply Hi. }
  exists r, s'. eexists. split; [exact Hr|]. split; auto. split; [apply is_boolean_at; exact HQ|].
  destruct (list_eq_dec Z.eq_dec xs ys); split; auto; discriminate.
Qed.
Lemma top_is_equal_error wit a b s :
  length (limbs a) <> length (limbs b) \/ limb_width (bparams a) <> limb_width (bparams b) ->
  run wit (is_equal a b) s = (Err Unsatisfiable, s).
Proof.
  intros H. unfold is_equal. destruct (Nat.eqb_spec (length (limbs a)) (length (limbs b))); [|reflexivity].
  unfold width_agreement. destruct H as [H|H]; [congruence|].
  rewrite (proj2 (Nat.eqb_neq _ _)) by auto. reflexivity.
Qed.

(** ** Allocation *)
Lemma top_alloc_nat f w n wit s : st_cons (snd (run wit (alloc_from_nat f w n) s)) = st_cons s.
Proof.
  apply no_con_run. unfold alloc_from_nat. apply no_con_bind.
  - apply no_con_mapM. intros i x v. exact I.
  - intros xs. destruct (match captured xs with [] => _ | _ => _ end). exact I.
Qed.
Lemma top_alloc_limbs f mw w n wit s : st_cons (snd (run wit (alloc_from_limbs f mw w n) s)) = st_cons s.
Proof.
  apply no_con_run. unfold alloc_from_limbs. apply no_con_bind.
  - apply no_con_mapM. intros i x v. exact I.
  - intros xs. destruct (match captured xs with [] => _ | _ => _ end). exact I.
Qed.

Lemma top_alloc_from_nat v w n s : good s -> (1 <= n)%nat -> (w < NUM_BITS)%nat ->
  0 <= v < 2 ^ Z.of_nat (w * n) ->
  exists b s' vs, run true (alloc_from_nat (Ok v) w n) s = (Ok b, s') /\ good s' /\
    bignat_at s' b vs /\ value b = Some v /\ length vs = n /\
    bparams b = params_new w n /\ Forall (fun d => 0 <= d < 2 ^ Z.of_nat w) vs.
Proof.
  intros G Hn Hw Hv. set (ys := map (digit w v) (seq 0 n)).
  assert (HL : length ys = n) by (unfold ys; now rewrite map_length, seq_length).
  assert (HR : Forall (fun d => 0 <= d < 2 ^ Z.of_nat w) ys) by apply digits_range.
  assert (HC : Forall canon ys) by (eapply range_canon; eauto).
  destruct (hwp_run (alloc_from_nat (Ok v) w n) s (fun rho b => is_bn rho Honest b ys /\ bparams b = params_new w n) G)
    as (b & s' & Hr & Hg & _ & HQ).
  { intros rho Hag one. eapply hwp_awp. apply (alloc_from_nat_awp rho Honest (Ok v) w n ys); auto.
    intros _. split; auto. split; auto. exists v. auto. }
  exists b, s', ys. split; auto. split; auto.
  assert (Hp : bparams b = params_new w n) by apply (HQ _ (agree_asg s')).
  split; [|split; [|split; [|split]]]; auto.
  - apply is_bignat_at; [intros rho Ha; apply HQ, Ha|]. unfold in_word. rewrite Hp.
    change (max_word (params_new _ _)) with (int_with_n_ones w). rewrite int_with_n_ones_spec. eapply Forall_impl; [|exact HR].
  cbn beta. intros; lia.
  - destruct (HQ _ (agree_asg s')) as [(_ & _ & _ & _ & Hh) _]. destruct (Hh eq_refl) as [_ ->].
    rewrite Hp. cbn [params_new limb_width]. unfold ys. rewrite digits_value, Z.mod_small; auto.
Qed.
Lemma top_alloc_from_nat_error v w n s : (1 <= n)%nat -> 0 <= v ->
  2 ^ Z.of_nat (w * n) <= v -> run true (alloc_from_nat (Ok v) w n) s = (Err IoError, s).
Proof.
  intros Hn H0 Hv. unfold alloc_from_nat. destruct n as [|n]; [lia|].
  cbn [rbind]. rewrite nat_to_limbs_err by lia. reflexivity.
Qed.

Lemma top_alloc_from_limbs vs mw w n s : good s -> (1 <= n)%nat -> Forall canon vs -> length vs = n ->
  exists b s', run true (alloc_from_limbs (Ok vs) mw w n) s = (Ok b, s') /\ good s' /\
    limb_values b = Some vs /\ value b = Some (value_of (2 ^ Z.of_nat w) vs) /\
    Forall2 (carries s') (limbs b) vs /\
    bparams b = mkParams 0 (match mw with Some m => m | None => 2 ^ Z.of_nat w - 1 end) w n.
Proof.
  intros G Hn HC HL.
  destruct (hwp_run (alloc_from_limbs (Ok vs) mw w n) s (fun rho b => is_bn rho Honest b vs /\
     bparams b = mkParams 0 (match mw with Some m => m | None => int_with_n_ones w end) w n) G)
    as (b & s' & Hr & Hg & _ & HQ).
  { intros rho Hag one. eapply hwp_awp. apply (alloc_from_limbs_awp rho Honest (Ok vs) mw w n vs); auto.
    intros vs' H. injection H as <-. auto. }
  exists b, s'. split; auto. split; auto.
  destruct (HQ _ (agree_asg s')) as [(_ & _ & _ & _ & Hh) Hp]. destruct (Hh eq_refl) as [H1 H2].
  rewrite Hp in H2. split; auto. split; auto. split.
  - apply carries_list. intros rho Ha. destruct (HQ _ Ha) as [(H & _) _]. now apply ev_canon.
  - rewrite Hp, int_with_n_ones_spec. reflexivity.
Qed.
Lemma top_alloc_from_limbs_error vs mw w n s : (1 <= n)%nat -> length vs <> n ->
  run true (alloc_from_limbs (Ok vs) mw w n) s = (Err Unsatisfiable, s).
Proof.
  intros Hn HL. unfold alloc_from_limbs. destruct n as [|n]; [lia|]. cbn [seq mapM bind].
  rewrite (proj2 (Nat.eqb_neq _ _)) by auto. reflexivity.
Qed.

Lemma all_some_map {A} (l : list A) : all_some (map Some l) = Some l.
Proof. induction l; simpl; auto. now rewrite IHl. Qed.
Lemma top_from_limbs s ns vs w : good s -> Forall2 (num_at s) ns vs ->
  limb_values (from_limbs ns w) = Some vs /\
  value (from_limbs ns w) = Some (value_of (2 ^ Z.of_nat w) vs) /\
  limbs (from_limbs ns w) = map n_lc ns /\ Forall2 (carries s) (limbs (from_limbs ns w)) vs /\
  bparams (from_limbs ns w) = mkParams 0 (2 ^ Z.of_nat w - 1) w (length ns).
Proof.
  intros G H. assert (Hv : map n_val ns = map Some vs).
  { induction H as [|n v ns vs (H1 & _) _ IH]; simpl; congruence. }
  assert (HC : Forall canon vs).
  { clear -H. induction H as [|n v ns vs (_ & H1 & _) _ IH]; constructor; auto. }
  unfold from_limbs. rewrite Hv, all_some_map, int_with_n_ones_spec.
  cbn [limb_values value limbs bparams option_map].
  rewrite limbs_to_nat_canon by auto. split; auto. split; auto. split; auto. split; auto.
  clear -H. induction H as [|n v ns vs (_ & _ & H1) _ IH]; simpl; constructor; auto.
Qed.

(** ** from_num *)
Lemma digits_bound w k vs : length vs = k -> Forall (fun v => 0 <= v < 2 ^ Z.of_nat w) vs ->
  0 <= value_of (2 ^ Z.of_nat w) vs < 2 ^ Z.of_nat (w * k).
Proof.
  intros <- H. rewrite pow2_mul. apply value_of_bound; auto using pow2_pos.
Qed.

Lemma limb_bits rho w ls bss : (w < NUM_BITS)%nat ->
  Forall2 (fun l bs => length bs = w /\ eqp (lc_eval rho l) (bits_value bs)) ls bss ->
  wires rho ls = map bits_value bss.
Proof.
  intros Hw H. unfold wires. induction H as [|l bs ls bss [H1 H2] _ IH]; auto. cbn [map]. f_equal; auto.
  apply feval_eqp; auto. pose proof (bits_value_bound bs). pose proof (width_lt_modulus w Hw).
  rewrite H1 in H. red. lia.
Qed.
Lemma bits_range w bss : Forall (fun bs => length bs = w) bss ->
  Forall (fun v => 0 <= v < 2 ^ Z.of_nat w) (map bits_value bss).
Proof.
  intros H. apply Forall_map. eapply Forall_impl; [|exact H]. intros bs <-. apply bits_value_bound.
Qed.
Lemma Forall2_len_Forall rho w ls bss :
  Forall2 (fun l bs => length bs = w /\ eqp (lc_eval rho l) (bits_value bs)) ls bss ->
  Forall (fun bs : list bool => length bs = w) bss.
Proof. induction 1 as [|l bs ls bss [H1 _] _ IH]; constructor; auto. Qed.

Lemma top_from_num_sound wit n w k s b s' rho : run wit (from_num n w k) s = (Ok b, s') -> sat rho s' ->
  (w < NUM_BITS)%nat ->
  length (limbs b) = k /\ bparams b = params_new w k /\
  Forall (fun v => 0 <= v < 2 ^ Z.of_nat w) (wires rho (limbs b)) /\
  int_of rho b mod modulus = feval rho (n_lc n) /\
  ((w * k < NUM_BITS)%nat -> int_of rho b = feval rho (n_lc n)).
Proof.
  intros Hr Hs Hw. destruct (swp_run_any _ _ _ _ _ _ _ Hr Hs (from_num_swp rho (proj1 Hs) Any n w k))
    as (Hp & HL & bss & H1 & H2).
  pose proof (Forall2_len_Forall _ _ _ _ H1) as HF. pose proof (limb_bits _ _ _ _ Hw H1) as HB.
  rewrite (bits_value_concat w) in H2 by auto.
  assert (HI : int_of rho b = value_of (2 ^ Z.of_nat w) (map bits_value bss)).
  { unfold int_of. rewrite HB, Hp. reflexivity. }
  rewrite <- HI in H2. split; auto. split; auto. split; [rewrite HB; now apply bits_range|].
  assert (H3 : int_of rho b mod modulus = feval rho (n_lc n)) by (unfold feval; now rewrite (proj1 (eqp_eq _ _) H2)).
  split; auto. intros Hwk. rewrite <- H3. symmetry. apply Z.mod_small.
  pose proof (digits_bound w k (map bits_value bss)) as D. rewrite HI.
  pose proof (width_lt_modulus _ Hwk). specialize (D ltac:(rewrite map_length, <- (Forall2_length _ _ _ H1); auto) (bits_range _ _ HF)).
  lia.
Qed.

Lemma top_from_num_complete n v w k s : good s -> num_at s n v -> (w < NUM_BITS)%nat -> (1 <= k)%nat ->
  v < 2 ^ Z.of_nat (w * k) ->
  exists b s' vs, run true (from_num n w k) s = (Ok b, s') /\ good s' /\ bignat_at s' b vs /\
    value b = Some v /\ Forall (fun d => 0 <= d < 2 ^ Z.of_nat w) vs /\ bparams b = params_new w k.
Proof.
  intros G Hn Hw Hk Hv. destruct Hn as (N1 & N2 & N3).
  assert (Hv' : 0 <= v < 2 ^ Z.of_nat (w * k)) by (destruct N2; lia).
  set (ys := map (digit w v) (seq 0 k)).
  assert (HL : length ys = k) by (unfold ys; now rewrite map_length, seq_length).
  assert (HR : Forall (fun d => 0 <= d < 2 ^ Z.of_nat w) ys) by apply digits_range.
  assert (HV : value_of (2 ^ Z.of_nat w) ys = v)
    by (unfold ys; rewrite digits_value, Z.mod_small; auto).
  destruct (hwp_run (from_num n w k) s (fun rho b => is_bn rho Honest b ys /\ bparams b = params_new w k) G)
    as (b & s' & Hr & Hg & _ & HQ).
  { intros rho Hag one. eapply hwp_awp. apply (from_num_awp rho one Honest n w k ys); auto.
    - rewrite HV. eapply carries_eqp; eauto.
    - intros _. split; auto. exists v. auto. }
  exists b, s', ys. split; auto. split; auto.
  assert (Hp : bparams b = params_new w k) by apply (HQ _ (agree_asg s')).
  split; [|split; [|split]]; auto.
  - apply is_bignat_at; [intros rho Ha; apply HQ, Ha|]. unfold in_word. rewrite Hp.
    change (max_word (params_new _ _)) with (int_with_n_ones w). rewrite int_with_n_ones_spec. eapply Forall_impl; [|exact HR].
  cbn beta. intros; lia.
  - destruct (HQ _ (agree_asg s')) as [(_ & _ & _ & _ & Hh) _]. destruct (Hh eq_refl) as [_ ->].
    rewrite Hp. cbn [params_new limb_width]. now rewrite HV.
Qed.

Lemma top_from_num_any wit n v x w k s b s' rho0 : good_for rho0 s -> carries_for rho0 s (n_lc n) v ->
  run wit (from_num n w k) s = (Ok b, s') -> (w < NUM_BITS)%nat ->
  0 <= x < 2 ^ Z.of_nat (w * k) -> x mod modulus = v ->
  exists rho, same_on s rho rho0 /\ sat rho s' /\ int_of rho b = x /\
    Forall (fun d => 0 <= d < 2 ^ Z.of_nat w) (wires rho (limbs b)).
Proof.
  intros G Hn Hr Hw Hx Hxv. set (ys := map (digit w x) (seq 0 k)).
  assert (HL : length ys = k) by (unfold ys; now rewrite map_length, seq_length).
  assert (HR : Forall (fun d => 0 <= d < 2 ^ Z.of_nat w) ys) by apply digits_range.
  assert (HC : Forall canon ys) by (eapply range_canon; eauto).
  assert (HV : value_of (2 ^ Z.of_nat w) ys = x)
    by (unfold ys; rewrite digits_value, Z.mod_small; auto).
  destruct (awp_run wit (from_num n w k) s rho0 _ (fun rho b => is_bn rho (md_of wit) b ys /\ bparams b = params_new w k) b s' G
     (fun rho Hso one => from_num_awp rho one (md_of wit) n w k ys HL HR Hw
        ltac:(rewrite HV, (carries_for_eqp _ _ _ _ _ Hn Hso one), <- Hxv; apply eqp_fmk) (md_of_not _ _)) Hr)
    as (rho & H1 & H2 & H3).
  exists rho. destruct (H3 rho (same_on_refl _ _)) as [(E1 & _) Hp].
  pose proof (ev_canon _ _ _ E1 HC) as Hw'.
  split; auto. split; [apply H2, same_on_refl|]. split; [|now rewrite Hw'].
  unfold int_of. rewrite Hw', Hp. exact HV.
Qed.

Lemma top_from_num_ambiguous wit n v w k s b s' rho0 : good_for rho0 s ->
  carries_for rho0 s (n_lc n) v -> run wit (from_num n w k) s = (Ok b, s') -> (w < NUM_BITS)%nat ->
  v + modulus < 2 ^ Z.of_nat (w * k) ->
  (exists rho, same_on s rho rho0 /\ sat rho s' /\ int_of rho b = v) /\
  (exists rho, same_on s rho rho0 /\ sat rho s' /\ int_of rho b = v + modulus).
Proof.
  intros G Hn Hr Hw Hv. pose proof (Hn rho0 (same_on_refl _ _) (proj1 (G _ (same_on_refl _ _)))) as Hc.
  assert (0 <= v < modulus) by (rewrite <- Hc; apply fmk_canon).
  destruct (top_from_num_any wit n v v w k s b s' rho0) as (r1 & A1 & A2 & A3 & _); auto;
    [lia|now apply Z.mod_small|].
  destruct (top_from_num_any wit n v (v + modulus) w k s b s' rho0) as (r2 & B1 & B2 & B3 & _); auto;
    [lia|rewrite <- (Z.mul_1_l modulus) at 1; rewrite Z_mod_plus_full; now apply Z.mod_small|].
  split; [exists r1|exists r2]; auto.
Qed.
Lemma top_from_num_4x64 wit n v s b s' rho0 : good_for rho0 s ->
  carries_for rho0 s (n_lc n) v -> run wit (from_num n 64 4) s = (Ok b, s') -> (64 < NUM_BITS)%nat ->
  modulus < 2 ^ 255 ->
  exists rho, same_on s rho rho0 /\ sat rho s' /\ int_of rho b = v + modulus.
Proof.
  intros G Hn Hr Hw Hm. pose proof (Hn rho0 (same_on_refl _ _) (proj1 (G _ (same_on_refl _ _)))) as Hc.
  assert (0 <= v < modulus) by (rewrite <- Hc; apply fmk_canon).
  apply (top_from_num_ambiguous wit n v 64 4 s b s' rho0); auto.
  change (Z.of_nat (64 * 4)) with 256. lia.
Qed.

(** ** assert_well_formed *)
Lemma top_well_formed_exact wit b vs s u s' rho0 : good_for rho0 s -> well_shaped b ->
  Forall2 (carries_for rho0 s) (limbs b) vs -> (1 <= limb_width (bparams b))%nat ->
  run wit (assert_well_formed b) s = (Ok u, s') ->
  ((exists rho, same_on s rho rho0 /\ sat rho s') <->
   Forall (fun v => v < 2 ^ Z.of_nat (limb_width (bparams b))) vs).
Proof.
  intros G [S1 S2] Hc Hw Hr.
  assert (Hev : forall rho, same_on s rho rho0 -> rho ONE = 1 -> ev rho (limbs b) vs).
  { intros rho Hso one. clear -Hc Hso one W. induction Hc; constructor; auto.
    eapply carries_for_eqp; eauto. }
  pose proof (same_on_refl s rho0) as R. pose proof (G _ R) as G0.
  assert (HC : Forall canon vs).
  { clear -Hc R G0 W. induction Hc as [|l v ls vs H _ IH]; constructor; auto.
    rewrite <- (H rho0 R (proj1 G0)). apply fmk_canon. }
  split.
  - intros (rho & Hso & Hs).
    pose proof (swp_run_any _ _ _ _ _ _ _ Hr Hs (assert_well_formed_swp rho (proj1 Hs) Any b)) as H.
    cbv beta in H. rewrite (ev_canon _ _ _ (Hev _ Hso (proj1 Hs)) HC) in H.
    rewrite width1_pos in H by auto. eapply Forall_impl; [|exact H]. cbn. intros; lia.
  - intros Hv.
    assert (Hbn : forall rho, same_on s rho rho0 -> rho ONE = 1 -> is_bn rho (md_of wit) b vs).
    { intros rho Hso one. pose proof (Hev rho Hso one) as He. split; auto. split; auto.
      split; [rewrite S1; exact (ev_length _ _ _ He)|]. split; auto. apply md_of_not. }
    destruct (awp_run wit (assert_well_formed b) s rho0 _ (fun _ _ => True) u s' G
      (fun rho Hso one => assert_well_formed_awp rho one (md_of wit) b vs (Hbn rho Hso one)
         ltac:(rewrite width1_pos by auto; exact Hv) (md_of_not _ _)) Hr) as (rho & H1 & H2 & _).
    exists rho. split; auto. apply H2, same_on_refl.
Qed.

Lemma top_well_formed_complete b vs s : good s -> bignat_at s b vs ->
  Forall (fun v => v < 2 ^ Z.of_nat (limb_width (bparams b))) vs ->
  (1 <= limb_width (bparams b) <= NUM_BITS)%nat ->
  exists s', run true (assert_well_formed b) s = (Ok tt, s') /\ good s'.
Proof.
  intros G Hb Hv Hw.
  destruct (hwp_run (assert_well_formed b) s (fun _ _ => True) G) as (u & s' & Hr & Hg & _).
  { intros rho Hag one. eapply hwp_awp. apply (assert_well_formed_awp rho one Honest b vs).
    - apply (bignat_at_is _ _ _ _ Hb Hag one).
    - rewrite width1_pos by lia. exact Hv.
    - intros _. lia. }
  destruct u. exists s'. auto.
Qed.

(** ** decompose *)
Lemma top_bn_decompose_sound wit b s bv s' rho : run wit (bn_decompose b) s = (Ok bv, s') -> sat rho s' ->
  (limb_width (bparams b) < NUM_BITS)%nat ->
  exists bs, length bs = (limb_width (bparams b) * length (limbs b))%nat /\
    wires rho (bv_bits bv) = map Z.b2z bs /\ bits_value bs = int_of rho b.
Proof.
  intros Hr Hs Hw. destruct (swp_run_any _ _ _ _ _ _ _ Hr Hs (bn_decompose_swp rho (proj1 Hs) Any b))
    as (bss & H1 & _ & H2).
  pose proof (Forall2_len_Forall _ _ _ _ H1) as HF.
  exists (List.concat bss). split; [|split].
  - rewrite (Forall2_length _ _ _ H1). clear -HF. induction HF as [|bs bss H _ IH]; cbn [List.concat length]; [lia|].
    rewrite app_length, H, IH. lia.
  - now apply wires_bits.
  - rewrite (bits_value_concat (limb_width (bparams b))) by auto.
    unfold int_of. now rewrite (limb_bits _ _ _ _ Hw H1).
Qed.

Lemma top_bn_decompose_complete b vs s : good s -> bignat_at s b vs ->
  Forall (fun v => v < 2 ^ Z.of_nat (limb_width (bparams b))) vs ->
  (1 <= limb_width (bparams b) <= NUM_BITS)%nat -> vs <> [] ->
  exists bv s' bs, run true (bn_decompose b) s = (Ok bv, s') /\ good s' /\
    bv_vals bv = Some bs /\ Forall2 (fun l x => carries s' l (Z.b2z x)) (bv_bits bv) bs /\
    length bs = (limb_width (bparams b) * length vs)%nat /\
    bits_value bs = value_of (2 ^ Z.of_nat (limb_width (bparams b))) vs.
Proof.
  intros G Hb Hv Hw Hne. set (w := limb_width (bparams b)) in *.
  assert (HP : Forall (fun v => 0 <= v < 2 ^ Z.of_nat w) vs).
  { destruct Hb as (_ & _ & _ & _ & H). apply Forall_forall. rewrite Forall_forall in H, Hv.
    intros v Hin. specialize (H v Hin). specialize (Hv v Hin). lia. }
  assert (Hlen : length (flat_map (bits_of w) vs) = (w * length vs)%nat).
  { clear. induction vs; cbn [flat_map length]; [lia|]. rewrite app_length, bits_of_length, IHvs. lia. }
  destruct (hwp_run (bn_decompose b) s (fun rho bv => wire_allocs rho bv (flat_map (bits_of w) vs) /\
     bv_vals bv = Some (flat_map (bits_of w) vs)) G) as (bv & s' & Hr & Hg & _ & HQ).
  { intros rho Hag one. eapply hwp_mono; [eapply hwp_awp; apply (bn_decompose_awp rho one Honest b vs)|].
    - apply (bignat_at_is _ _ _ _ Hb Hag one).
    - exact Hv.
    - lia.
    - cbv beta. intros bv [H1 H2]. split; auto. apply H2; auto. intros C.
      apply (f_equal (@length _)) in C. fold w in C. rewrite Hlen in C. destruct vs; [congruence|]. cbn [length] in C. lia. }
  exists bv, s', (flat_map (bits_of w) vs). split; auto. split; auto.
  destruct (HQ _ (agree_asg s')) as [_ Hvals]. split; auto. split; [|split; auto].
  - assert (F : Forall2 (carries s') (bv_bits bv) (map Z.b2z (flat_map (bits_of w) vs))).
    { apply carries_list. intros rho Ha. apply wires_bits. apply HQ, Ha. }
    revert F. generalize (bv_bits bv), (flat_map (bits_of w) vs). clear.
    intros l bs. revert l. induction bs; intros l F; inversion F; subst; constructor; auto.
  - apply bits_value_of_limbs. exact HP.
Qed.

End Top.
